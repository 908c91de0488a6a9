(** * Sketches with an arbitrary difference vector *)
From Coq Require Import NArith ZArith Arith List Bool Lia Permutation Sorted.
From Verif Require Import ModelRust ModelF64 ModelEnv ModelRegisters ModelEncoding ModelCommon ModelPlus ModelSerde
  Spec SpecBuild SpecSketch SpecBytes
  BitFacts RegFacts EncFacts CodeFacts MergeFacts RawFacts PlusInv CountFacts ClaimRefute DecodeFacts.
Import ListNotations.
Local Open Scope N_scope.

(** ** The iterator as a list that ends well or in a panic *)
Inductive stream (e : env) : difiter -> list N -> bool -> Prop :=
| stream_end : forall it it', dif_next e it = Ret (None, it') -> stream e it [] true
| stream_bad : forall it, dif_next e it = Panic -> stream e it [] false
| stream_cons : forall it it' x L ok, dif_next e it = Ret (Some x, it') -> x < 2 ^ 32 ->
    stream e it' L ok -> stream e it (x :: L) ok.

Lemma total_cons : forall x l, total (x :: l) = x + total l.
Proof. reflexivity. Qed.

Lemma sums_mod : forall l a, map (fun x => x mod 2 ^ 32) (sums (a mod 2 ^ 32) l) =
  map (fun x => x mod 2 ^ 32) (sums a l).
Proof.
  assert (G : forall l a b, a mod 2 ^ 32 = b mod 2 ^ 32 ->
    map (fun x => x mod 2 ^ 32) (sums a l) = map (fun x => x mod 2 ^ 32) (sums b l)).
  { induction l as [|x l IH]; intros a b E; cbn [sums map]; [reflexivity|].
    assert ((a + x) mod 2 ^ 32 = (b + x) mod 2 ^ 32) as Q.
    { rewrite <- (N.add_mod_idemp_l a), <- (N.add_mod_idemp_l b) by apply pow2_nz. now rewrite E. }
    f_equal; [exact Q|]. now apply IH. }
  intros l a. apply G. apply N.mod_mod, pow2_nz.
Qed.

Lemma sums_small : forall l a, a + total l < 2 ^ 32 -> map (fun x => x mod 2 ^ 32) (sums a l) = sums a l.
Proof.
  induction l as [|x l IH]; intros a H; cbn [sums map]; [reflexivity|]. rewrite total_cons in H.
  rewrite N.mod_small by lia. f_equal. apply IH. lia.
Qed.

Lemma stream_numbers : forall e d w ns pre last, d_buf d = pre ++ concat ns ++ w ->
  Forall is_number ns -> Forall byte (concat ns) -> Forall (fun b => 128 <= b) w -> Forall byte w ->
  last < 2 ^ 32 ->
  exists L ok, stream e {| di_index := N.of_nat (length pre); di_last := last; di_inner := d |} L ok /\
    (length L <= length ns)%nat /\
    (ok = false <-> w <> [] \/ Exists (fun n => ~ readable e n) ns \/
                    overflow_checks e = true /\ 2 ^ 32 <= last + total (map read32 ns)) /\
    (ok = true -> Forall (fun n => (length n <= 5)%nat) ns ->
     L = map (fun x => x mod 2 ^ 32) (sums last (map read32 ns))).
Proof.
  intros e d w ns. induction ns as [|n ns IH]; intros pre last E F B G Bw Hl.
  - destruct w as [|b w].
    + exists [], true. split; [|split; [|split]]; auto.
      * eapply stream_end. unfold dif_next. cbn [di_inner di_index]. rewrite E.
        simpl concat. simpl app. rewrite app_nil_r, len_length, N.leb_refl. reflexivity.
      * split; [discriminate|]. intros [K|[K|[_ K]]]; [congruence|inversion K|].
        cbn [map] in K. change (total []) with 0 in K. lia.
    + exists [], false. split; [|split; [|split]]; auto.
      * apply stream_bad. unfold dif_next. cbn [di_inner di_index]. rewrite E. simpl concat.
        rewrite app_nil_l, len_length, (proj2 (N.leb_gt _ _)) by (rewrite app_length; simpl; lia).
        now rewrite (decode_open e pre (b :: w)).
      * split; [intros _; left; discriminate|reflexivity].
  - inv F. simpl concat in *. apply Forall_app in B. destruct B as [Bn B].
    pose proof (number_nonempty n H1) as Hpos.
    assert (Hn : forall k, dif_next e {| di_index := N.of_nat (length pre); di_last := last; di_inner := d |} = k <->
      (let* (dif, idx) := varint_decode e (pre ++ n ++ (concat ns ++ w)) (N.of_nat (length pre)) in
       let* l := uadd (overflow_checks e) 32 last dif in
       Ret (Some l, {| di_index := idx; di_last := l; di_inner := d |})) = k).
    { intros k. unfold dif_next. cbn [di_inner di_index di_last]. rewrite E, <- (app_assoc n).
      rewrite len_length, (proj2 (N.leb_gt _ _)) by (rewrite !app_length; lia). reflexivity. }
    destruct (readable_dec e n) as [R|R].
    2:{ exists [], false. split; [|split; [simpl; lia|split]].
        - apply stream_bad, Hn. now rewrite decode_long.
        - split; [intros _; right; left; now left|reflexivity].
        - discriminate. }
    destruct (decode_number e pre n (concat ns ++ w) H1 Bn R) as (x & Ex & Lx & Vx).
    rewrite Ex, bind_ret in Hn. 
    assert (E' : d_buf d = (pre ++ n) ++ concat ns ++ w) by (rewrite E; now rewrite <- !app_assoc).
    cbn [map]. rewrite total_cons.
    destruct (N.lt_ge_cases (last + x) (2 ^ 32)) as [S|S].
    + rewrite uadd_ok, bind_ret in Hn by auto.
      destruct (IH (pre ++ n) (last + x) E' H2 B G Bw S) as (L & ok & SL & LL & K & V).
      exists (last + x :: L), ok. split; [|split; [simpl; lia|split]].
      * eapply stream_cons; [apply Hn; reflexivity|auto|exact SL].
      * destruct (overflow_checks e) eqn:Ck.
        -- assert (Hn5 : (length n <= 5)%nat) by (destruct R as [R|R]; [congruence|auto]).
           rewrite K, Vx by auto. rewrite (N.add_assoc last).
           split; (intros [Q|[Q|Q]]; [auto| |auto]); [auto|].
           inv Q; [contradiction|auto].
        -- rewrite K. split; (intros [Q|[Q|[Q _]]]; [auto| |discriminate]); [auto|].
           inv Q; [contradiction|auto].
      * intros Eo Fo. inv Fo. cbn [sums map]. rewrite <- Vx by auto.
        rewrite (N.mod_small (last + x)) by auto. f_equal. now apply V.
    + destruct (overflow_checks e) eqn:Ck.
      * assert (Hn5 : (length n <= 5)%nat) by (destruct R as [R|R]; [congruence|auto]).
        exists [], false. split; [|split; [simpl; lia|split]].
        -- apply stream_bad, Hn. unfold uadd. now rewrite (proj2 (N.ltb_ge _ _) S).
        -- split; auto. intros _. right. right. split; auto. rewrite <- Vx by auto. lia.
        -- discriminate.
      * destruct (IH (pre ++ n) ((last + x) mod 2 ^ 32) E' H2 B G Bw) as (L & ok & SL & LL & K & V).
        { apply N.mod_lt, pow2_nz. }
        exists ((last + x) mod 2 ^ 32 :: L), ok. split; [|split; [simpl; lia|split]].
        -- eapply stream_cons; [apply Hn|apply N.mod_lt, pow2_nz|exact SL].
           unfold uadd. now rewrite (proj2 (N.ltb_ge _ _) S).
        -- rewrite K. split; (intros [Q|[Q|[Q _]]]; [auto| |discriminate]); [auto|].
           inv Q; [contradiction|auto].
        -- intros Eo Fo. inv Fo. cbn [sums map]. rewrite <- Vx by auto. f_equal. rewrite V by auto.
           apply sums_mod.
Qed.

Lemma numbers_unique : forall ns ns', Forall is_number ns -> Forall is_number ns' ->
  concat ns = concat ns' -> ns = ns'.
Proof.
  induction ns as [|n ns IH]; intros [|n' ns'] F F' E.
  - reflexivity.
  - inv F'. pose proof (number_nonempty _ H1). simpl in E. destruct n'; [simpl in H; lia|discriminate].
  - inv F. pose proof (number_nonempty _ H1). simpl in E. destruct n; [simpl in H; lia|discriminate].
  - inv F. inv F'. simpl in E.
    assert (n = n').
    { destruct H1 as (c & t & -> & Fc & Ht). destruct H3 as (c' & t' & -> & Fc' & Ht').
      clear - E Fc Ht Fc' Ht'. revert c' Fc' E. induction c as [|b c IH]; intros [|b' c'] Fc' E; simpl in E.
      - congruence.
      - inv E. inv Fc'. lia.
      - inv E. inv Fc. lia.
      - inv E. inv Fc. inv Fc'. simpl. f_equal. now apply IH. }
    subst n'. apply app_inv_head in E. f_equal. now apply IH.
Qed.

Lemma stream_bytes : forall e d, Forall byte (d_buf d) ->
  exists L ok, stream e (dif_into_iter d) L ok /\ (length L <= length (d_buf d))%nat /\
    (ok = false <-> unreadable (overflow_checks e) (d_buf d)) /\
    (forall ns, d_buf d = concat ns -> Forall is_number ns ->
       Forall (fun n => (length n <= 5)%nat) ns ->
       overflow_checks e = false \/ total (map read32 ns) < 2 ^ 32 ->
       L = map (fun x => x mod 2 ^ 32) (sums 0 (map read32 ns)) /\ ok = true).
Proof.
  intros e d B. destruct (split_numbers (d_buf d)) as (ns & w & E & F & G).
  pose proof B as B0. rewrite E in B. apply Forall_app in B. destruct B as [Bn Bw].
  destruct (stream_numbers e d w ns [] 0 E F Bn G Bw (pow2_pos 32)) as (L & ok & SL & LL & K & V).
  exists L, ok. split; [exact SL|]. split; [|split].
  - rewrite E, app_length. pose proof (numbers_count ns F). lia.
  - rewrite K, not_readable. unfold unreadable. destruct w as [|b w].
    + rewrite app_nil_r in E. rewrite E.
      assert (NO : ~ ends_open (concat ns)).
      { intros Q. rewrite <- (app_nil_r (concat ns)) in Q. apply ends_open_iff in Q; auto. }
      rewrite long_run_iff by auto. split.
      * intros [Q|[[Hc Q]|[Hc Q]]]; [congruence| |]; right; split; auto. right. exists ns. auto.
      * intros [Q|[Hc [Q|(ns' & E' & F' & Q)]]]; [contradiction|auto|].
        right. right. split; auto. apply numbers_unique in E'; auto. now subst ns'.
    + split; [|left; discriminate]. intros _. left. rewrite E. apply ends_open_iff; auto. discriminate.
  - intros ns' E' F' L' T'.
    assert (w = []).
    { destruct w as [|b w]; auto. exfalso. assert (ends_open (d_buf d)) as Q.
      { rewrite E. apply ends_open_iff; auto. discriminate. }
      rewrite E', <- (app_nil_r (concat ns')) in Q. apply ends_open_iff in Q; auto. }
    subst w. rewrite app_nil_r in E. assert (ns = ns') by (apply numbers_unique; congruence). subst ns'.
    assert (ok = true).
    { destruct ok; auto. destruct (proj1 K eq_refl) as [Q|[Q|[Hc Q]]]; [congruence| |].
      - apply not_readable in Q. destruct Q as [_ Q]. apply Exists_exists in Q. destruct Q as (n & Hn & Q).
        rewrite Forall_forall in L'. specialize (L' n Hn). lia.
      - rewrite N.add_0_l in Q. destruct T' as [T'|T']; [congruence|lia]. }
    split; auto.
Qed.

(** ** [for] loops *)
Lemma dif_for_stream : forall (S : Type) e (body : S -> N -> M S) it L ok, stream e it L ok ->
  forall fuel s, (length L < fuel)%nat -> (forall s x, exists s', body s x = Ret s') ->
  if ok then dif_for_loop fuel e it body s = for_each L body s
  else dif_for_loop fuel e it body s = Panic.
Proof.
  intros S e body it L ok H. induction H as [it it' E|it E|it it' x L ok E Lx H IH];
    intros [|fuel] s Hf Hb; simpl in Hf; try lia; cbn [dif_for_loop]; rewrite E.
  - reflexivity.
  - reflexivity.
  - rewrite bind_ret. cbn [for_each]. destruct (Hb s x) as [s' Es]. rewrite Es, !bind_ret.
    apply IH; auto. lia.
Qed.

(** Collecting the items. *)
Definition dif_items (e : env) (d : difintvec) : M (list N) :=
  dif_for e d (fun acc c => Ret (acc ++ [c])) [].

Lemma for_each_collect : forall (L acc : list N),
  for_each L (fun acc c => Ret (acc ++ [c])) acc = Ret (acc ++ L).
Proof.
  induction L as [|x L IH]; intros acc; cbn [for_each].
  - now rewrite app_nil_r.
  - rewrite bind_ret, IH. now rewrite <- app_assoc.
Qed.

Lemma dif_items_bytes : forall e d, Forall byte (d_buf d) ->
  (dif_items e d = Panic <-> unreadable (overflow_checks e) (d_buf d)) /\
  (dif_items e d = Panic \/ exists L, dif_items e d = Ret L) /\
  (forall ns, d_buf d = concat ns -> Forall is_number ns ->
     Forall (fun n => (length n <= 5)%nat) ns ->
     overflow_checks e = false \/ total (map read32 ns) < 2 ^ 32 ->
     dif_items e d = Ret (map (fun x => x mod 2 ^ 32) (sums 0 (map read32 ns)))).
Proof.
  intros e d B. destruct (stream_bytes e d B) as (L & ok & SL & LL & K & V).
  pose proof (dif_for_stream (list N) e (fun acc c => Ret (acc ++ [c])) _ L ok SL
                (S (length (d_buf d))) [] ltac:(lia) ltac:(eauto)) as H.
  fold (dif_for e d (fun (acc : list N) c => Ret (acc ++ [c])) []) in H. fold (dif_items e d) in H.
  destruct ok.
  - rewrite for_each_collect in H. rewrite H. split; [|split].
    + split; [discriminate|]. intros Q. apply K in Q. discriminate.
    + right. eauto.
    + intros ns E F L5 T. simpl. f_equal. now apply V.
  - rewrite H. split; [|split].
    + split; auto. intros _. now apply K.
    + now left.
    + intros ns E F L5 T. destruct (V ns E F L5 T). discriminate.
Qed.

(** ** Flushing *)

(** Whole numbers only. *)
Definition whole (v : list N) : Prop :=
  Forall byte v /\ exists ns, v = concat ns /\ Forall is_number ns.

Lemma whole_closed : forall v, whole v -> ~ ends_open v.
Proof.
  intros v (_ & ns & -> & F) Q. rewrite <- (app_nil_r (concat ns)) in Q.
  apply ends_open_iff in Q; auto.
Qed.

Lemma venc_number : forall n, n < 2 ^ 32 -> is_number (venc n) /\ Forall byte (venc n).
Proof.
  assert (G : forall f n, (0 < f)%nat -> n < 2 ^ (7 * N.of_nat f) ->
    is_number (venc_f f n) /\ Forall byte (venc_f f n)).
  { induction f as [|f IH]; intros n H0 Hn; [lia|]. cbn [venc_f].
    destruct (N.ltb_spec n 128) as [Hs|Hge].
    - split; [exists [], n; repeat split; auto|]. constructor; [unfold byte; lia|constructor].
    - destruct f as [|f]; [exfalso; simpl in Hn; lia|].
      destruct (IH (n / 128)) as [(c & t & E & Fc & Ht) Bf]; [lia| |].
      + apply N.div_lt_upper_bound; [lia|]. change 128 with (2 ^ 7). rewrite <- N.pow_add_r.
        replace (7 + 7 * N.of_nat (S f)) with (7 * N.of_nat (S (S f))) by lia. exact Hn.
      + pose proof (N.mod_lt n 128 ltac:(discriminate)) as Hml. split.
        * exists (n mod 128 + 128 :: c), t. rewrite E. split; [reflexivity|]. split; auto.
          constructor; auto. nlia.
        * constructor; auto. unfold byte. nlia. }
  intros n Hn. apply G; [lia|]. apply N.lt_le_trans with (2 ^ 32); auto. apply pow2_le. lia.
Qed.

Lemma push_any : forall e d x, x < 2 ^ 32 -> d_last d < 2 ^ 32 -> whole (d_buf d) ->
  (dif_push e d x = Panic /\ overflow_checks e = true) \/
  (exists d', dif_push e d x = Ret d' /\ d_last d' = x /\ whole (d_buf d')).
Proof.
  intros e d x Hx Hd (Bd & ns & E & F).
  assert (W : forall n, n < 2 ^ 32 -> whole (d_buf d ++ venc n)).
  { intros n Hn. destruct (venc_number n Hn) as [Vn Vb]. split.
    - apply Forall_app. auto.
    - exists (ns ++ [venc n]). rewrite concat_app, E. simpl. rewrite app_nil_r. split; auto.
      apply Forall_app. auto. }
  unfold dif_push, usub. destruct (N.leb_spec (d_last d) x) as [L|L].
  - right. rewrite bind_ret, varint_push_ok, bind_ret by lia. eexists. split; [reflexivity|].
    split; [reflexivity|]. apply W. lia.
  - destruct (overflow_checks e); [now left|right].
    rewrite bind_ret, varint_push_ok, bind_ret by lia. eexists. split; [reflexivity|].
    split; [reflexivity|]. apply W. lia.
Qed.

(** A peeked iterator. *)
Definition ahead (e : env) (o : option N) (it : difiter) (B : list N) (ok : bool) : Prop :=
  match o with
  | None => B = [] /\ ok = true
  | Some b => b < 2 ^ 32 /\ exists B', B = b :: B' /\ stream e it B' ok
  end.

Lemma ahead_next : forall e it B ok, stream e it B ok ->
  (dif_next e it = Panic /\ B = [] /\ ok = false) \/
  (exists o it', dif_next e it = Ret (o, it') /\ ahead e o it' B ok).
Proof.
  intros e it B ok H. destruct H as [it it' E|it E|it it' x L ok E Lx H].
  - right. exists None, it'. repeat split; auto.
  - now left.
  - right. exists (Some x), it'. split; auto. split; auto. exists L. auto.
Qed.

Lemma merge_any : forall fuel e A B ok bo bit out, (length A + length B < fuel)%nat ->
  Forall (fun x => x < 2 ^ 32) A -> d_last out < 2 ^ 32 -> whole (d_buf out) -> ahead e bo bit B ok ->
  (merge_loop fuel e (fst (set_next A)) (snd (set_next A)) bo bit out = Panic /\
   (overflow_checks e = true \/ ok = false)) \/
  (ok = true /\ exists out', merge_loop fuel e (fst (set_next A)) (snd (set_next A)) bo bit out = Ret out' /\
     whole (d_buf out')).
Proof.
  induction fuel as [|fuel IH]; intros e A B ok bo bit out Hf FA Ho Hw HB; [lia|].
  assert (STEP : forall A' B' x, (length A' + length B' < fuel)%nat -> Forall (fun x => x < 2 ^ 32) A' ->
    x < 2 ^ 32 -> ahead e bo bit B' ok ->
    (let* out' := dif_push e out x in
     merge_loop fuel e (fst (set_next A')) (snd (set_next A')) bo bit out') = Panic /\
      (overflow_checks e = true \/ ok = false) \/
    (ok = true /\ exists o', (let* out' := dif_push e out x in
     merge_loop fuel e (fst (set_next A')) (snd (set_next A')) bo bit out') = Ret o' /\ whole (d_buf o'))).
  { intros A' B' x Hl FA' Lx HB'. destruct (push_any e out x Lx Ho Hw) as [[P C]|(out' & P & Lo & Wo)].
    - left. rewrite P. auto.
    - rewrite P, !bind_ret. apply IH with (B := B'); auto. now rewrite Lo. }
  assert (NEXT : forall A' B' x, (length A' + length B' < fuel)%nat -> Forall (fun x => x < 2 ^ 32) A' ->
    x < 2 ^ 32 -> stream e bit B' ok ->
    (let* out' := dif_push e out x in
     let* (bo', bit') := dif_next e bit in
     merge_loop fuel e (fst (set_next A')) (snd (set_next A')) bo' bit' out') = Panic /\
      (overflow_checks e = true \/ ok = false) \/
    (ok = true /\ exists o', (let* out' := dif_push e out x in
     let* (bo', bit') := dif_next e bit in
     merge_loop fuel e (fst (set_next A')) (snd (set_next A')) bo' bit' out') = Ret o' /\ whole (d_buf o'))).
  { intros A' B' x Hl FA' Lx HB'. destruct (push_any e out x Lx Ho Hw) as [[P C]|(out' & P & Lo & Wo)].
    - left. rewrite P. auto.
    - rewrite P, !bind_ret. destruct (ahead_next e bit B' ok HB') as [(E & _ & K)|(o & it' & E & HA)].
      + left. rewrite E. auto.
      + rewrite E, !bind_ret. apply IH with (B := B'); auto. now rewrite Lo. }
  destruct bo as [b|].
  - destruct HB as (Lb & B' & -> & SB). simpl in Hf.
    destruct A as [|a A]; cbn [merge_loop set_next fst snd].
    + apply (NEXT [] B' b); auto; simpl; lia.
    + inv FA. simpl in Hf. rewrite (surjective_pairing (set_next A)).
      destruct (N.eqb_spec a b) as [->|Hne].
      * apply (NEXT A B' b); auto; lia.
      * destruct (b <? a).
        -- apply (NEXT (a :: A) B' b); auto; simpl; lia.
        -- apply (STEP A (b :: B') a); auto; [simpl; lia|]. split; auto. eauto.
  - destruct HB as [-> ->]. simpl in Hf. destruct A as [|a A]; cbn [merge_loop set_next fst snd].
    + right. eauto.
    + inv FA. simpl in Hf. rewrite (surjective_pairing (set_next A)).
      apply (STEP A [] a); auto; [simpl; lia|]. split; auto.
Qed.

Lemma merge_any_bad : forall fuel e A B bo bit out, (length A + length B < fuel)%nat ->
  Forall (fun x => x < 2 ^ 32) A -> d_last out < 2 ^ 32 -> whole (d_buf out) -> ahead e bo bit B false ->
  merge_loop fuel e (fst (set_next A)) (snd (set_next A)) bo bit out = Panic.
Proof.
  intros. destruct (merge_any fuel e A B false bo bit out) as [[E _]|[E _]]; auto. discriminate.
Qed.

Lemma last_le : forall L x, Forall (fun y => y <= x) L -> last_of L <= x.
Proof.
  intros L x Hf. unfold last_of. destruct L as [|y L]; [simpl; lia|].
  assert (In (last (y :: L) 0) (y :: L)) as Hin.
  { clear Hf. revert y. induction L as [|z L IH]; intros y; [now left|]. right. apply IH. }
  rewrite Forall_forall in Hf. exact (Hf _ Hin).
Qed.

Definition upto (L A : list N) : Prop := forall x y, In x L -> In y A -> x <= y.

Lemma upto_snoc : forall L x A, upto L A -> (forall y, In y A -> x <= y) -> upto (L ++ [x]) A.
Proof.
  intros L x A H Hx y z Hy Hz. apply in_app_iff in Hy. destruct Hy as [Hy|[<-|[]]]; auto.
Qed.

Lemma missing_tl : forall B b A, (forall a, In a A -> a <> b) -> missing (b :: B) A = missing B A.
Proof.
  intros B b A H. unfold missing. apply filter_ext_in. intros a Ha. specialize (H a Ha).
  destruct (in_dec N.eq_dec a (b :: B)) as [[K|K]|K]; destruct (in_dec N.eq_dec a B); auto.
  all: try congruence; try contradiction; exfalso; apply K; now right.
Qed.

Lemma missing_in : forall B a A, In a B -> missing B (a :: A) = missing B A.
Proof. intros B a A H. unfold missing. cbn [filter]. now destruct (in_dec N.eq_dec a B). Qed.

Lemma missing_out : forall B a A, ~ In a B -> missing B (a :: A) = a :: missing B A.
Proof. intros B a A H. unfold missing. cbn [filter]. now destruct (in_dec N.eq_dec a B). Qed.

(** The merged list: what the vector holds and the pending codes it lacks. *)
Lemma merge_good : forall fuel e A B L bo bit out, (length A + length B < fuel)%nat ->
  StronglySorted N.lt A -> nondecreasing B -> upto L A -> upto L B ->
  Forall (fun x => x < 2 ^ 32) A -> ahead e bo bit B true -> dif_repr out L ->
  exists out' K, merge_loop fuel e (fst (set_next A)) (snd (set_next A)) bo bit out = Ret out' /\
    dif_repr out' (L ++ K) /\ Permutation K (B ++ missing B A).
Proof.
  induction fuel as [|fuel IH]; intros e A B L bo bit out Hf SA SB UA UB FA HB Ho; [lia|].
  assert (UH : forall x C, upto L (x :: C) -> last_of L <= x).
  { intros x C U. apply last_le, Forall_forall. intros y Hy. apply U; auto. now left. }
  assert (UT : forall x C, upto L (x :: C) -> upto L C) by (intros x C U y z Hy Hz; apply U; auto; now right).
  destruct bo as [b|].
  - destruct HB as (Lb & B' & -> & S). simpl in Hf. destruct SB as [Sb SB].
    destruct A as [|a A]; cbn [merge_loop set_next fst snd].
    + destruct (dif_push_ok e out L b Ho (UH _ _ UB) Lb) as (out1 & E1 & Ho1).
      rewrite E1, bind_ret. destruct (ahead_next e bit B' true S) as [(_ & _ & K)|(o & it' & E & HA)]; [discriminate|].
      rewrite E, bind_ret.
      destruct (IH e [] B' (L ++ [b]) o it' out1) as (out' & K & E' & R & P); auto.
      * simpl; lia.
      * intros x y _ [].
      * apply upto_snoc; eauto.
      * exists out', (b :: K). split; [exact E'|]. split; [now rewrite <- app_assoc in R|].
        simpl. now constructor.
    + inv SA. inv FA. simpl in Hf. rewrite Forall_forall in H2.
      rewrite (surjective_pairing (set_next A)).
      destruct (N.eqb_spec a b) as [->|Hne].
      * destruct (dif_push_ok e out L b Ho (UH _ _ UB) Lb) as (out1 & E1 & Ho1).
        rewrite E1, bind_ret. destruct (ahead_next e bit B' true S) as [(_ & _ & K)|(o & it' & E & HA)]; [discriminate|].
        rewrite E, bind_ret.
        destruct (IH e A B' (L ++ [b]) o it' out1) as (out' & K & E' & R & P); auto.
        -- lia.
        -- apply upto_snoc; [eauto|]. intros y Hy. specialize (H2 y Hy). lia.
        -- apply upto_snoc; eauto.
        -- exists out', (b :: K). split; [exact E'|]. split; [now rewrite <- app_assoc in R|].
           rewrite missing_in by now left.
           rewrite missing_tl by (intros y Hy; specialize (H2 y Hy); lia).
           simpl. now constructor.
      * destruct (N.ltb_spec b a) as [Hlt|Hge].
        -- destruct (dif_push_ok e out L b Ho (UH _ _ UB) Lb) as (out1 & E1 & Ho1).
           rewrite E1, bind_ret. destruct (ahead_next e bit B' true S) as [(_ & _ & K)|(o & it' & E & HA)]; [discriminate|].
           rewrite E, bind_ret.
           destruct (IH e (a :: A) B' (L ++ [b]) o it' out1) as (out' & K & E' & R & P); auto.
           ++ simpl; lia.
           ++ constructor; auto. now apply Forall_forall.
           ++ apply upto_snoc; [eauto|]. intros y [<-|Hy]; [lia|]. specialize (H2 y Hy). lia.
           ++ apply upto_snoc; eauto.
           ++ exists out', (b :: K). split; [exact E'|]. split; [now rewrite <- app_assoc in R|].
              rewrite missing_tl by (intros y [<-|Hy]; [lia|]; specialize (H2 y Hy); lia).
              simpl. now constructor.
        -- destruct (dif_push_ok e out L a Ho (UH _ _ UA) H3) as (out1 & E1 & Ho1).
           rewrite E1, bind_ret.
           destruct (IH e A (b :: B') (L ++ [a]) (Some b) bit out1) as (out' & K & E' & R & P); auto.
           ++ simpl; lia.
           ++ split; auto.
           ++ apply upto_snoc; [eauto|]. intros y Hy. specialize (H2 y Hy). lia.
           ++ apply upto_snoc; [eauto|]. intros y [<-|Hy]; [lia|]. specialize (Sb y Hy). lia.
           ++ split; auto. eauto.
           ++ exists out', (a :: K). split; [exact E'|]. split; [now rewrite <- app_assoc in R|].
              rewrite missing_out by (intros [Q|Q]; [congruence|]; specialize (Sb a Q); lia).
              rewrite P. apply Permutation_middle.
  - destruct HB as [-> _]. simpl in Hf. destruct A as [|a A]; cbn [merge_loop set_next fst snd].
    + exists out, []. split; [reflexivity|]. split; [now rewrite app_nil_r|constructor].
    + inv SA. inv FA. simpl in Hf. rewrite Forall_forall in H2.
      rewrite (surjective_pairing (set_next A)).
      destruct (dif_push_ok e out L a Ho (UH _ _ UA) H3) as (out1 & E1 & Ho1).
      rewrite E1, bind_ret.
      destruct (IH e A [] (L ++ [a]) None bit out1) as (out' & K & E' & R & P); auto.
      * simpl; lia.
      * apply upto_snoc; [eauto|]. intros y Hy. specialize (H2 y Hy). lia.
      * intros x y _ [].
      * split; auto.
      * exists out', (a :: K). split; [exact E'|]. split; [now rewrite <- app_assoc in R|].
        rewrite missing_out by (intros []). simpl app in *. now constructor.
Qed.

Lemma sums_nondecreasing : forall l b, nondecreasing (sums b l) /\ (forall y, In y (sums b l) -> b <= y).
Proof.
  induction l as [|x l IH]; intros b; [split; [exact I|intros y []]|].
  destruct (IH (b + x)) as [A B]. split.
  - split; auto.
  - intros y [<-|Hy]; [lia|]. specialize (B y Hy). lia.
Qed.

Lemma sort_missing : forall B T T', Permutation T' T -> Permutation (missing B T') (missing B T).
Proof.
  intros B T T' P. unfold missing. induction P; cbn [filter]; auto.
  - destruct (in_dec N.eq_dec x B); auto.
  - destruct (in_dec N.eq_dec x B); destruct (in_dec N.eq_dec y B); auto. constructor.
  - now transitivity (filter (fun a => if in_dec N.eq_dec a B then false else true) l').
Qed.

Lemma whole_nil : whole [].
Proof. split; [constructor|]. exists []. split; auto. Qed.

Lemma merge_codes_bad : forall e ord T d, is_order ord -> Forall (fun x => x < 2 ^ 32) T ->
  Forall byte (d_buf d) -> unreadable (overflow_checks e) (d_buf d) -> merge_codes e ord T d = Panic.
Proof.
  intros e ord T d Ho FT B U. unfold merge_codes.
  rewrite (surjective_pairing (set_next (sort (ord T)))).
  destruct (stream_bytes e d B) as (L & ok & SL & LL & K & V). apply K in U. subst ok.
  destruct (ahead_next e _ L false SL) as [(E & _)|(o & it' & E & HA)]; [now rewrite E|].
  rewrite E, bind_ret. apply merge_any_bad with (B := L); auto.
  - lia.
  - rewrite Forall_forall in *. intros x Hx. apply FT.
    apply (Permutation_in (l := sort (ord T))); auto.
    eapply Permutation_trans; [apply sort_perm|apply Ho].
  - apply whole_nil.
Qed.

Lemma merge_codes_release : forall e ord T d, is_order ord -> Forall (fun x => x < 2 ^ 32) T ->
  Forall byte (d_buf d) -> overflow_checks e = false -> ~ ends_open (d_buf d) ->
  exists d', merge_codes e ord T d = Ret d' /\ whole (d_buf d').
Proof.
  intros e ord T d Ho FT B Ck U. unfold merge_codes.
  rewrite (surjective_pairing (set_next (sort (ord T)))).
  destruct (stream_bytes e d B) as (L & ok & SL & LL & K & V).
  assert (ok = true).
  { destruct ok; auto. destruct (proj1 K eq_refl) as [Q|[Q _]]; [contradiction|congruence]. }
  subst ok.
  destruct (ahead_next e _ L true SL) as [(_ & _ & Q)|(o & it' & E & HA)]; [discriminate|].
  rewrite E, bind_ret.
  destruct (merge_any (S (length (sort (ord T)) + length (d_buf d))) e (sort (ord T)) L true o it' dif_new)
    as [[_ [Q|Q]]|[_ Q]]; auto; try congruence.
  - lia.
  - rewrite Forall_forall in *. intros x Hx. apply FT.
    apply (Permutation_in (l := sort (ord T))); auto.
    eapply Permutation_trans; [apply sort_perm|apply Ho].
  - apply whole_nil.
Qed.

Lemma merge_codes_good : forall e ord T d ns, is_order ord -> NoDup T -> Forall (fun x => x < 2 ^ 32) T ->
  Forall byte (d_buf d) -> d_buf d = concat ns -> Forall is_number ns ->
  Forall (fun n => (length n <= 5)%nat) ns -> total (map read32 ns) < 2 ^ 32 ->
  exists d' K, merge_codes e ord T d = Ret d' /\ dif_repr d' K /\
    Permutation K (sums 0 (map read32 ns) ++ missing (sums 0 (map read32 ns)) T).
Proof.
  intros e ord T d ns Ho ND FT B E F L5 TT. unfold merge_codes.
  rewrite (surjective_pairing (set_next (sort (ord T)))).
  destruct (stream_bytes e d B) as (L & ok & SL & LL & K & V).
  destruct (V ns E F L5 (or_intror TT)) as [EL ->]. rewrite sums_small in EL by exact TT.
  assert (P : Permutation (sort (ord T)) T) by (eapply Permutation_trans; [apply sort_perm|apply Ho]).
  destruct (ahead_next e _ L true SL) as [(_ & _ & Q)|(o & it' & E' & HA)]; [discriminate|].
  rewrite E', bind_ret.
  destruct (merge_good (S (length (sort (ord T)) + length (d_buf d))) e (sort (ord T)) L [] o it' dif_new)
    as (out' & M' & EM & R & PM); auto.
  - lia.
  - apply sort_strong. apply (Permutation_NoDup (l := T)); auto. symmetry. apply Ho.
  - rewrite EL. apply sums_nondecreasing.
  - intros x y [].
  - intros x y [].
  - rewrite Forall_forall in *. intros x Hx. apply FT. eapply Permutation_in; eauto.
  - apply dif_repr_new.
  - exists out', M'. split; [exact EM|]. split; [exact R|]. rewrite <- EL.
    rewrite PM. apply Permutation_app_head. now apply sort_missing.
Qed.

(** ** Conversion to registers *)

Lemma decode_any : forall e p c, 32 <= usize_bits e -> 4 <= p <= 18 -> c < 2 ^ 32 ->
  exists z i, decode_hash e p c = Ret (z, i) /\ i < 2 ^ p /\ (tidy p c -> z < 64).
Proof.
  intros e p c Hu Hp Hc. unfold decode_hash, code_index, PRIME_PRECISION. rewrite land1.
  assert (Hcast : forall x, x < 2 ^ p -> cast (usize_bits e) x = x).
  { intros x Hx. unfold cast. apply N.mod_small. eapply N.lt_le_trans; [exact Hx|]. apply pow2_le. lia. }
  destruct (N.eqb_spec (c mod 2) 1) as [E|E].
  - rewrite extract_ok by (auto; lia). rewrite bind_ret. rewrite usub_ok by lia. rewrite bind_ret.
    change (7 - 1) with 6. change (2 ^ 1) with 2. change (2 ^ 6) with 64.
    assert (Hz : (c / 2) mod 64 < 64) by (apply N.mod_lt; discriminate).
    rewrite uadd_ok by (change (2 ^ 32) with 4294967296; nlia). rewrite bind_ret.
    rewrite usub_ok by lia. rewrite bind_ret. rewrite extract_ok by (auto; lia). rewrite !bind_ret.
    assert (Hi : (c / 2 ^ (32 - p)) mod 2 ^ (32 - (32 - p)) < 2 ^ p).
    { replace (32 - (32 - p)) with p by lia. apply N.mod_lt, pow2_nz. }
    rewrite Hcast by auto. eexists. eexists. split; [reflexivity|]. split; [auto|].
    intros T. apply T. rewrite <- N.bit0_odd, N.bit0_eqb, E. reflexivity.
  - rewrite (uadd_ok _ 8) by (change (2 ^ 8) with 256; lia). rewrite bind_ret.
    rewrite usub_ok by lia. rewrite bind_ret. rewrite ushl_ok by lia. rewrite bind_ret.
    rewrite uadd_ok by (unfold leading_zeros; change (2 ^ 32) with 4294967296; lia). rewrite bind_ret.
    rewrite usub_ok by lia. rewrite bind_ret.
    rewrite (uadd_ok _ 8) by (change (2 ^ 8) with 256; lia). rewrite bind_ret.
    rewrite extract_ok by (auto; lia). rewrite !bind_ret.
    assert (Hi : (c / 2 ^ (25 - p + 1)) mod 2 ^ (25 + 1 - (25 - p + 1)) < 2 ^ p).
    { replace (25 + 1 - (25 - p + 1)) with p by lia. apply N.mod_lt, pow2_nz. }
    rewrite Hcast by auto. eexists. eexists. split; [reflexivity|]. split; [auto|].
    intros _. unfold leading_zeros. lia.
Qed.

Lemma absorb_tidy : forall e p r c, 32 <= usize_bits e -> 4 <= p <= 18 -> c < 2 ^ 32 -> tidy p c ->
  wf_regs 6 r -> exact_zeros 6 r -> r_count r = 2 ^ p ->
  exists r', absorb_code e p r c = Ret r' /\ wf_regs 6 r' /\ exact_zeros 6 r' /\ r_count r' = 2 ^ p.
Proof.
  intros e p r c Hu Hp Hc T W Z C. unfold absorb_code. change SIZE_PLUS with 6.
  destruct (decode_any e p c Hu Hp Hc) as (z & i & E & Hi & Hz). rewrite E, bind_ret.
  destruct (set_greater_exact e 6 r i z) as (r' & old & E' & W' & C' & Z' & _); auto.
  - now right.
  - now rewrite C.
  - exists r'. repeat split; auto; try apply W'. congruence.
Qed.

Lemma absorbs_tidy : forall e p L r, 32 <= usize_bits e -> 4 <= p <= 18 ->
  Forall (fun x => x < 2 ^ 32) L -> Forall (tidy p) L ->
  wf_regs 6 r -> exact_zeros 6 r -> r_count r = 2 ^ p ->
  exists r', for_each L (absorb_code e p) r = Ret r'.
Proof.
  intros e p L. induction L as [|c L IH]; intros r Hu Hp F T W Z C; cbn [for_each]; [eauto|].
  inv F. inv T. destruct (absorb_tidy e p r c) as (r' & E & W' & Z' & C'); auto.
  rewrite E, bind_ret. now apply IH.
Qed.

Lemma update_length : forall (A : Type) (v : list A) i x, length (update v i x) = length v.
Proof. intros. unfold update. apply update_nat_length. Qed.

(** Without overflow checks only the bounds of the buffer matter. *)
Lemma absorb_release : forall e p r c, 32 <= usize_bits e -> 4 <= p <= 18 -> c < 2 ^ 32 ->
  overflow_checks e = false -> 2 ^ p <= 5 * N.of_nat (length (r_buf r)) ->
  exists r', absorb_code e p r c = Ret r' /\ length (r_buf r') = length (r_buf r).
Proof.
  intros e p r c Hu Hp Hc Ck Hl. unfold absorb_code. change SIZE_PLUS with 6.
  destruct (decode_any e p c Hu Hp Hc) as (z & i & E & Hi & Hz). rewrite E, bind_ret.
  unfold set_greater. change (count_per_word 6) with 5.
  assert (Hq : i / 5 < N.of_nat (length (r_buf r))) by (apply N.div_lt_upper_bound; lia).
  unfold index. destruct (nth_error (r_buf r) (N.to_nat (i / 5))) as [w|] eqn:En.
  2:{ apply nth_error_None in En. clear - En Hq. set (q := i / 5) in *. clearbody q. lia. }
  rewrite bind_ret. cbv zeta. destruct (_ <? z); [|eauto].
  destruct (_ =? 0).
  - unfold usub. rewrite Ck. destruct (1 <=? r_zeros r); rewrite bind_ret; eexists;
      (split; [reflexivity|]); cbn [r_buf]; apply update_length.
  - eexists. split; [reflexivity|]. cbn [r_buf]. apply update_length.
Qed.

Lemma absorbs_release : forall e p it L, stream e it L true -> forall fuel r, (length L < fuel)%nat ->
  32 <= usize_bits e -> 4 <= p <= 18 -> overflow_checks e = false ->
  2 ^ p <= 5 * N.of_nat (length (r_buf r)) ->
  exists r', dif_for_loop fuel e it (absorb_code e p) r = Ret r'.
Proof.
  intros e p it L H. remember true as ok. induction H as [it it' E|it E|it it' x L ok E Lx H IH];
    intros [|fuel] r Hf Hu Hp Ck Hl; simpl in Hf; try lia; try discriminate; cbn [dif_for_loop]; rewrite E, bind_ret.
  - eauto.
  - destruct (absorb_release e p r x Hu Hp Lx Ck Hl) as (r' & E' & L'). rewrite E', bind_ret.
    apply IH; auto; [lia|]. now rewrite L'.
Qed.

(** ** Counting *)
Lemma p18_lt : forall p, p <= 18 -> 2 ^ p <= 262144.
Proof. intros p Hp. change 262144 with (2 ^ 18). now apply pow2_le. Qed.

Lemma u32_le : forall e, 32 <= usize_bits e -> 4294967296 <= 2 ^ usize_bits e.
Proof. intros e H. change 4294967296 with (2 ^ 32). now apply pow2_le. Qed.

(** Registers left by [merge_sparse]. *)
Lemma count_after : forall (V : Type) e ord (s s' : plus V), is_sparse s = true ->
  merge_sparse e ord s = Ret s' -> is_sparse s' = false ->
  hp_count e ord s = hp_count e ord s'.
Proof.
  intros V e ord s s' S E S'. unfold hp_count. rewrite S, S', E. reflexivity.
Qed.

Lemma count_bad : forall (V : Type) e ord (s : plus V), is_order ord -> hp_registers s = None ->
  Forall (fun x => x < 2 ^ 32) (hp_tmpset s) -> Forall byte (d_buf (hp_sparse s)) ->
  unreadable (overflow_checks e) (d_buf (hp_sparse s)) -> hp_count e ord s = Panic.
Proof.
  intros V e ord s Ho Er FT B U. unfold hp_count, is_sparse. rewrite Er, merge_sparse_codes.
  now rewrite (merge_codes_bad e ord _ _ Ho FT B U).
Qed.

Lemma ascending_nondecreasing : forall L b, ascending b L -> nondecreasing L /\ (forall y, In y L -> b <= y).
Proof.
  induction L as [|x L IH]; intros b A; [split; [exact I|intros y []]|].
  destruct A as [Hx A]. destruct (IH x A) as [N1 N2]. split.
  - split; auto.
  - intros y [<-|Hy]; [auto|]. specialize (N2 y Hy). lia.
Qed.

Lemma nondecreasing_unique : forall K K', nondecreasing K -> nondecreasing K' -> Permutation K K' -> K = K'.
Proof.
  induction K as [|x K IH]; intros K' N1 N2 P.
  - symmetry. now apply Permutation_nil.
  - destruct K' as [|y K']; [symmetry in P; apply Permutation_nil in P; discriminate|].
    destruct N1 as [A1 N1]. destruct N2 as [A2 N2].
    assert (x = y).
    { assert (In y (x :: K)) as Q1 by (eapply Permutation_in; [symmetry; exact P|now left]).
      assert (In x (y :: K')) as Q2 by (eapply Permutation_in; [exact P|now left]).
      destruct Q1 as [Q1|Q1]; auto. destruct Q2 as [Q2|Q2]; auto.
      specialize (A1 y Q1). specialize (A2 x Q2). lia. }
    subst y. f_equal. apply IH; auto. now apply Permutation_cons_inv in P.
Qed.

Lemma count_sparse : forall (V : Type) e ord (s : plus V) ns K, is_order ord ->
  hp_registers s = None -> NoDup (hp_tmpset s) ->
  Forall (fun x => x < 2 ^ 32) (hp_tmpset s) -> Forall byte (d_buf (hp_sparse s)) ->
  d_buf (hp_sparse s) = concat ns -> Forall is_number ns ->
  Forall (fun n => (length n <= 5)%nat) ns -> total (map read32 ns) < 2 ^ 32 ->
  flushes_to (hp_tmpset s) (sums 0 (map read32 ns)) K -> gap_len 0 K <= hp_counts2 s ->
  (hp_count e ord s = Panic /\ overflow_checks e = true /\ hp_counts1 s < N.of_nat (length K)) \/
  (exists s' c zeros, hp_count e ord s = Ret (s', c) /\ linear_count e (hp_counts1 s) zeros = Ret c /\
   (zeros + N.of_nat (length K) = hp_counts1 s \/
    overflow_checks e = false /\ hp_counts1 s < N.of_nat (length K) /\
      zeros = hp_counts1 s + 2 ^ usize_bits e - N.of_nat (length K))).
Proof.
  intros V e ord s ns K Ho Er ND FT B E F L5 TT [NK PK] G.
  destruct (merge_codes_good e ord (hp_tmpset s) (hp_sparse s) ns Ho ND FT B E F L5 TT)
    as (d' & K' & E' & R & P).
  assert (K' = K).
  { destruct R as (A & _). destruct (ascending_nondecreasing K' 0 A) as [NK' _].
    apply nondecreasing_unique; auto. rewrite PK, P. reflexivity. }
  subst K'.
  unfold hp_count, is_sparse. rewrite Er, merge_sparse_codes, E', bind_ret. cbv zeta.
  cbn [hp_counts2 set_tmpset set_sparse hp_sparse].
  rewrite (dif_repr_len d' K R), (proj2 (N.ltb_ge _ _) G), bind_ret.
  cbn [hp_registers set_tmpset set_sparse hp_counts1 hp_sparse]. rewrite Er.
  destruct R as (_ & _ & _ & C & _). unfold dif_count. rewrite C.
  unfold usub. destruct (N.leb_spec (N.of_nat (length K)) (hp_counts1 s)) as [L|L].
  - right. rewrite bind_ret. destruct (linear_total e (hp_counts1 s) (hp_counts1 s - N.of_nat (length K))) as [c Ec].
    rewrite Ec, bind_ret. do 3 eexists. split; [reflexivity|]. split; [exact Ec|]. left. lia.
  - destruct (overflow_checks e) eqn:Ck; [left; auto|right]. rewrite bind_ret.
    destruct (linear_total e (hp_counts1 s) (hp_counts1 s + 2 ^ usize_bits e - N.of_nat (length K))) as [c Ec].
    rewrite Ec, bind_ret. do 3 eexists. split; [reflexivity|]. split; [exact Ec|]. right. auto.
Qed.

Lemma count_convert : forall (V : Type) e ord (s : plus V) ns K, build_std e -> is_order ord ->
  4 <= hp_precision s <= 18 -> hp_counts0 s = 2 ^ hp_precision s -> 2 * hp_precision s < usize_bits e ->
  hp_registers s = None -> NoDup (hp_tmpset s) ->
  Forall (fun x => x < 2 ^ 32) (hp_tmpset s) -> Forall byte (d_buf (hp_sparse s)) ->
  d_buf (hp_sparse s) = concat ns -> Forall is_number ns ->
  Forall (fun n => (length n <= 5)%nat) ns -> total (map read32 ns) < 2 ^ 32 ->
  flushes_to (hp_tmpset s) (sums 0 (map read32 ns)) K -> hp_counts2 s < gap_len 0 K ->
  Forall (tidy (hp_precision s)) K -> exists s' c, hp_count e ord s = Ret (s', c).
Proof.
  intros V e ord s ns K Hb Ho Hp E0 Hw Er ND FT B E F L5 TT [NK PK] G T.
  destruct (merge_codes_good e ord (hp_tmpset s) (hp_sparse s) ns Ho ND FT B E F L5 TT)
    as (d' & K' & E' & R & P).
  assert (K' = K).
  { destruct R as (A & _). destruct (ascending_nondecreasing K' 0 A) as [NK' _].
    apply nondecreasing_unique; auto. rewrite PK, P. reflexivity. }
  subst K'.
  assert (Hu : 32 <= usize_bits e) by (destruct Hb as [[H _] _]; lia).
  pose proof (u32_le e Hu) as U. pose proof (p18_lt _ (proj2 Hp)) as P18.
  assert (S : is_sparse s = true) by (unfold is_sparse; now rewrite Er).
  assert (M : exists s', merge_sparse e ord s = Ret s' /\ exists r, hp_registers s' = Some r /\
            hp_precision s' = hp_precision s /\ hp_counts0 s' = hp_counts0 s).
  { rewrite merge_sparse_codes, E', bind_ret. cbv zeta.
    cbn [hp_counts2 set_tmpset set_sparse hp_sparse].
    rewrite (dif_repr_len d' K R), (proj2 (N.ltb_lt _ _) G).
    unfold sparse_to_normal. cbn [hp_counts0 set_tmpset set_sparse hp_sparse hp_precision].
    change SIZE_PLUS with 6.
    destruct (with_count_spec e 6 (hp_counts0 s)) as (r0 & W0 & W & C & Z & _); [now right| |].
    { rewrite E0. change (count_per_word 6) with 5. lia. }
    rewrite W0, bind_ret, (dif_for_ok _ e d' K _ _ R).
    destruct (absorbs_tidy e (hp_precision s) K r0) as (r & Er'); auto.
    - apply R. - congruence.
    - rewrite Er', bind_ret. eexists. split; [reflexivity|]. exists r. repeat split. }
  destruct M as (s' & M & r & Es' & Ep & Ec).
  assert (S' : is_sparse s' = false) by (unfold is_sparse; now rewrite Es').
  rewrite (count_after V e ord s s' S M S').
  destruct (plus_safe V e ord s' r Hb) as (c & Ecc); auto.
  - now rewrite Ep.
  - right. rewrite Ec, E0, <- N.pow_add_r. apply pow2_lt. lia.
  - eauto.
Qed.

(** Without overflow checks. *)
Lemma count_release : forall (V : Type) e ord (s : plus V), build_std e -> is_order ord ->
  overflow_checks e = false -> 4 <= hp_precision s <= 18 -> hp_counts0 s = 2 ^ hp_precision s ->
  hp_registers s = None ->
  Forall (fun x => x < 2 ^ 32) (hp_tmpset s) -> Forall byte (d_buf (hp_sparse s)) ->
  (hp_count e ord s = Panic /\ ends_open (d_buf (hp_sparse s))) \/
  ((exists s' c, hp_count e ord s = Ret (s', c)) /\ ~ ends_open (d_buf (hp_sparse s))).
Proof.
  intros V e ord s Hb Ho Ck Hp E0 Er FT B.
  assert (D : ends_open (d_buf (hp_sparse s)) \/ ~ ends_open (d_buf (hp_sparse s))).
  { destruct (split_numbers (d_buf (hp_sparse s))) as (ns & w & E & F & G). rewrite E, (ends_open_iff ns w F G).
    destruct w; [right; congruence|left; discriminate]. }
  destruct D as [D|D].
  { left. split; auto. apply count_bad; auto. now left. }
  right. split; auto.
  assert (Hu : 32 <= usize_bits e) by (destruct Hb as [[H _] _]; lia).
  pose proof (u32_le e Hu) as U. pose proof (p18_lt _ (proj2 Hp)) as P18.
  assert (S : is_sparse s = true) by (unfold is_sparse; now rewrite Er).
  destruct (merge_codes_release e ord (hp_tmpset s) (hp_sparse s) Ho FT B Ck D) as (d' & E' & W').
  destruct (N.lt_ge_cases (hp_counts2 s) (dif_len d')) as [G|G].
  - assert (M : exists s', merge_sparse e ord s = Ret s' /\ exists r, hp_registers s' = Some r /\
              hp_precision s' = hp_precision s).
    { rewrite merge_sparse_codes, E', bind_ret. cbv zeta.
      cbn [hp_counts2 set_tmpset set_sparse hp_sparse].
      rewrite (proj2 (N.ltb_lt _ _) G).
      unfold sparse_to_normal. cbn [hp_counts0 set_tmpset set_sparse hp_sparse hp_precision].
      change SIZE_PLUS with 6.
      destruct (with_count_spec e 6 (hp_counts0 s)) as (r0 & W0 & W & C & Z & _); [now right| |].
      { rewrite E0. change (count_per_word 6) with 5. lia. }
      rewrite W0, bind_ret. unfold dif_for.
      destruct (stream_bytes e d' (proj1 W')) as (L & ok & SL & LL & K & _).
      assert (ok = true).
      { destruct ok; auto. destruct (proj1 K eq_refl) as [Q|[Q _]]; [|congruence].
        exfalso. now apply (whole_closed _ W'). }
      subst ok.
      destruct (absorbs_release e (hp_precision s) _ L SL (Datatypes.S (length (d_buf d'))) r0) as (r & Er'); auto.
      - lia.
      - pose proof (wf_total 6 r0 ltac:(now right) W) as Q. change (cpw 6) with 5%nat in Q.
        rewrite C, E0 in Q. lia.
      - rewrite Er', bind_ret. eexists. split; [reflexivity|]. exists r. repeat split. }
    destruct M as (s' & M & r & Es' & Ep).
    assert (S' : is_sparse s' = false) by (unfold is_sparse; now rewrite Es').
    rewrite (count_after V e ord s s' S M S').
    destruct (plus_safe V e ord s' r Hb) as (c & Ecc); auto.
    + now rewrite Ep.
    + eauto.
  - unfold hp_count, is_sparse. rewrite Er, merge_sparse_codes, E', bind_ret. cbv zeta.
    cbn [hp_counts2 set_tmpset set_sparse hp_sparse].
    rewrite (proj2 (N.ltb_ge _ _) G), bind_ret.
    cbn [hp_registers set_tmpset set_sparse hp_counts1 hp_sparse]. rewrite Er.
    unfold usub. destruct (_ <=? _); [|rewrite Ck]; rewrite bind_ret;
      match goal with |- context [linear_count ?a ?b ?c] => destruct (linear_total a b c) as [x ->] end;
      rewrite bind_ret; eauto.
Qed.

(** ** Registers present: exact condition *)
Lemma bias_range : forall e p raw, 18 < p \/ p < 4 -> estimate_bias e p raw = Panic.
Proof.
  intros e p raw H. unfold estimate_bias, MIN_PRECISION, usub.
  destruct (N.leb_spec 4 p) as [L|L].
  - rewrite bind_ret. unfold index.
    replace (nth_error _ _) with (@None (list f64)); [reflexivity|]. symmetry. apply nth_error_None.
    change (length ModelConstants.BIAS_DATA) with 15%nat. lia.
  - destruct (overflow_checks e); [reflexivity|]. rewrite bind_ret. unfold index.
    replace (nth_error _ _) with (@None (list f64)); [reflexivity|]. symmetry. apply nth_error_None.
    change (length ModelConstants.BIAS_DATA) with 15%nat. change (2 ^ 8) with 256. lia.
Qed.

Lemma threshold_range : forall p, 18 < p \/ p < 4 -> threshold p = Panic.
Proof.
  intros p H. destruct (N.lt_ge_cases p 4) as [L|L].
  - assert (p = 0 \/ p = 1 \/ p = 2 \/ p = 3) as [->|[->|[->| ->]]] by lia; reflexivity.
  - assert (18 < p) by lia. clear H L. destruct p as [|q]; [exfalso; lia|].
    do 5 try (destruct q as [q|q|]; try reflexivity; try (exfalso; lia)).
Qed.

Lemma raw_panics : forall e l c, Forall (fun v => v < lut_bound e) l ->
  overflow_checks e = true -> 2 ^ usize_bits e <= c * c -> estimate_raw_plus e l c = Panic.
Proof.
  intros e l c Hl Ck H. rewrite estimate_raw_plus_gen by auto. unfold umul.
  rewrite (proj2 (N.ltb_ge _ _) H), Ck. reflexivity.
Qed.

Lemma plus_normal_exact : forall (V : Type) e ord (s : plus V) r lc, build_std e ->
  hp_registers s = Some r -> linear_count e (hp_counts0 s) (r_zeros r) = Ret lc ->
  let big := overflow_checks e = true /\ 2 ^ usize_bits e <= hp_counts0 s * hp_counts0 s in
  (hp_count e ord s = Panic <->
   r_zeros r <> 0 /\
     (~ 4 <= hp_precision s <= 18 \/
      big /\ exists t, threshold (hp_precision s) = Ret t /\ fle lc t = false) \/
   r_zeros r = 0 /\
     (big \/ ~ 4 <= hp_precision s <= 18 /\
      exists raw, estimate_raw_plus e (reg_iter SIZE_PLUS r) (hp_counts0 s) = Ret raw /\
                  fle raw (fmul (of_Z 5) (of_N (hp_counts0 s))) = true)) /\
  (hp_count e ord s = Panic \/ exists c, hp_count e ord s = Ret (s, c)).
Proof.
  intros V e ord s r lc Hb Er El big. unfold hp_count, is_sparse. rewrite Er, bind_ret, Er. cbv zeta.
  unfold reg_zeros. rewrite El, bind_ret. change SIZE_PLUS with 6.
  assert (Hl : Forall (fun v => v < lut_bound e) (reg_iter 6 r)).
  { unfold lut_bound. rewrite (proj2 Hb). apply (reg_iter_lt 6). now right. }
  assert (D : (overflow_checks e = false \/ hp_counts0 s * hp_counts0 s < 2 ^ usize_bits e) \/ big).
  { unfold big. destruct (overflow_checks e); auto.
    destruct (N.lt_ge_cases (hp_counts0 s * hp_counts0 s) (2 ^ usize_bits e)); auto. }
  assert (NB : (overflow_checks e = false \/ hp_counts0 s * hp_counts0 s < 2 ^ usize_bits e) -> ~ big).
  { intros [Q|Q] [Q1 Q2]; [congruence|lia]. }
  assert (DL : (4 <= hp_precision s <= 18) \/ 18 < hp_precision s \/ hp_precision s < 4) by (lia).
  assert (NL : 18 < hp_precision s \/ hp_precision s < 4 -> ~ 4 <= hp_precision s <= 18) by (lia).
  destruct (N.eqb_spec (r_zeros r) 0) as [Z|Z]; cbn [negb].
  - destruct D as [D|D].
    + destruct (raw_total e (reg_iter 6 r) (hp_counts0 s) Hl D) as [raw Eraw].
      unfold estimate_corrected. rewrite Eraw, bind_ret.
      destruct (fle raw _) eqn:Ef.
      * destruct DL as [DL|DL].
        -- destruct (bias_total e (hp_precision s) raw (proj1 Hb) DL) as [b ->].
           { destruct raw; try reflexivity. discriminate Ef. }
           rewrite !bind_ret. split; [|eauto]. split; [discriminate|].
           intros [[Q _]|[_ [Q|[Q _]]]]; [congruence|exfalso; now apply NB|contradiction].
        -- rewrite (bias_range _ _ _ DL). split; [|now left]. split; [|reflexivity].
           intros _. right. split; auto. right. split; [auto|]. exists raw. auto.
      * rewrite bind_ret. split; [|eauto]. split; [discriminate|].
        intros [[Q _]|[_ [Q|[_ (raw' & Q1 & Q2)]]]]; [congruence|exfalso; now apply NB|].
        congruence.
    + unfold estimate_corrected. rewrite (raw_panics e _ _ Hl (proj1 D) (proj2 D)).
      split; [|now left]. split; [|reflexivity]. intros _. right. auto.
  - destruct DL as [DL|DL].
    2:{ rewrite (threshold_range _ DL). split; [|now left]. split; [|reflexivity]. intros _. left. auto. }
    destruct (threshold_ok _ DL) as [t Et]. rewrite Et, bind_ret.
    destruct (fle lc t) eqn:Ef.
    + split; [|eauto]. split; [discriminate|].
      intros [[_ [Q|[_ (t' & Q1 & Q2)]]]|[Q _]]; [contradiction|congruence|contradiction].
    + destruct D as [D|D].
      * destruct (corrected_total e (hp_precision s) (reg_iter 6 r) (hp_counts0 s) (proj1 Hb) DL Hl D) as [x ->].
        rewrite bind_ret. split; [|eauto]. split; [discriminate|].
        intros [[_ [Q|[Q _]]]|[Q _]]; [contradiction|exfalso; now apply NB|contradiction].
      * unfold estimate_corrected. rewrite (raw_panics e _ _ Hl (proj1 D) (proj2 D)).
        split; [|now left]. split; [|reflexivity]. intros _. left. split; auto. right. split; auto. eauto.
Qed.

(** ** What deserialization guarantees *)
Lemma de_list_range : forall w l r, de_list (de_uint w) l = Some r -> Forall (fun x => x < 2 ^ w) r.
Proof.
  intros w l. induction l as [|v l IH]; intros r H; cbn [de_list] in H.
  - injection H as <-. constructor.
  - unfold obind in H. destruct (de_uint w v) as [a|] eqn:Ea; [|discriminate].
    destruct (de_list (de_uint w) l) as [r'|]; [|discriminate]. injection H as <-.
    constructor; auto. destruct v; cbn [de_uint] in Ea; try discriminate.
    destruct (N.ltb_spec n (2 ^ w)); [|discriminate]. now injection Ea as <-.
Qed.

Lemma de_seq_range : forall w v r, de_seq (de_uint w) v = Some r -> Forall (fun x => x < 2 ^ w) r.
Proof. intros w v r H. destruct v; cbn [de_seq] in H; try discriminate; eapply de_list_range; eauto. Qed.

Lemma insert_all : forall (P : N -> Prop) t s, NoDup s -> Forall P s -> Forall P t ->
  NoDup (fold_left hset_insert t s) /\ Forall P (fold_left hset_insert t s).
Proof.
  intros P. induction t as [|c t IH]; intros s ND Fs Ft; cbn [fold_left]; [auto|]. inv Ft.
  unfold hset_insert at 2 4. destruct (existsb (N.eqb c) s) eqn:E; [now apply IH|].
  apply IH; auto. constructor; auto. intros Q.
  assert (existsb (N.eqb c) s = true) by (apply existsb_exists; exists c; split; auto; apply N.eqb_refl).
  congruence.
Qed.

Lemma de_plus_range : forall (V : Type) e de_b v (s : plus V), de_plus e de_b v = Some s ->
  NoDup (hp_tmpset s) /\ Forall (fun x => x < 2 ^ 32) (hp_tmpset s) /\
  Forall byte (d_buf (hp_sparse s)).
Proof.
  intros V e de_b v s H. unfold de_plus, obind in H.
  repeat match type of H with
  | match ?x with Some _ => _ | None => _ end = Some _ => let Q := fresh "Q" in destruct x eqn:Q; [|discriminate H]
  | (let (_, _) := ?x in _) = Some _ => destruct x
  end.
  injection H as <-. cbn [hp_tmpset hp_sparse].
  match goal with Q : de_seq (de_uint 32) _ = Some ?t |- _ => apply de_seq_range in Q;
    destruct (insert_all (fun x => x < 2 ^ 32) t [] (NoDup_nil _) (Forall_nil _) Q) end.
  split; auto. split; auto. clear H H0.
  match goal with Q : de_dif _ _ = Some _ |- _ => unfold de_dif, obind in Q; rename Q into H end.
  repeat match type of H with
  | match ?x with Some _ => _ | None => _ end = Some _ => let Q := fresh "Q" in destruct x eqn:Q; [|discriminate H]
  end.
  injection H as <-. cbn [d_buf].
  match goal with Q : de_varint ?x = Some _ |- _ => destruct x; cbn [de_varint] in Q; try discriminate;
    now apply de_seq_range in Q end.
Qed.
