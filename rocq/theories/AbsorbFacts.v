(** * Register files and the set of hashes they hold *)
From Coq Require Import NArith Arith List Bool Lia.
From Verif Require Import ModelRust ModelEnv ModelRegisters Spec BitFacts RegFacts.
Import ListNotations.
Local Open Scope N_scope.

(** Equal up to bucket and rank. *)
Definition covers (W p : N) (H1 H2 : list N) : Prop :=
  forall h, In h H1 -> exists h', In h' H2 /\ bucket W p h' = bucket W p h /\
                                  rank W p h' = rank W p h.

Lemma covers_incl : forall W p H1 H2, incl H1 H2 -> covers W p H1 H2.
Proof. intros W p H1 H2 I h Hh. exists h. auto. Qed.

Lemma is_register_ext : forall W p H1 H2 i v, covers W p H1 H2 -> covers W p H2 H1 ->
  is_register W p H1 i v -> is_register W p H2 i v.
Proof.
  intros W p H1 H2 i v C12 C21 [Hb Hex]. split.
  - intros h Hh Hi. destruct (C21 h Hh) as (h' & Hh' & Eb & Er). rewrite <- Er. apply Hb; auto.
    congruence.
  - destruct Hex as [->|(h & Hh & Hi & Hr)]; auto. right.
    destruct (C12 h Hh) as (h' & Hh' & Eb & Er). exists h'. repeat split; auto; congruence.
Qed.

Lemma is_register_unique : forall W p H i v v', p <= W ->
  is_register W p H i v -> is_register W p H i v' -> v = v'.
Proof.
  intros W p H i v v' Hp [Hb Hex] [Hb' Hex'].
  assert (v <= v').
  { destruct Hex as [->|(h & Hh & Hi & <-)]; [lia|]. apply Hb'; auto. }
  assert (v' <= v).
  { destruct Hex' as [->|(h & Hh & Hi & <-)]; [lia|]. apply Hb; auto. }
  lia.
Qed.

Lemma is_register_nil : forall W p i, is_register W p [] i 0.
Proof. intros. split; [intros h []|now left]. Qed.

Lemma is_register_cons : forall W p h H i v, is_register W p H i v ->
  is_register W p (h :: H) i (if bucket W p h =? i then N.max v (rank W p h) else v).
Proof.
  intros W p h H i v [Hb Hex]. destruct (N.eqb_spec (bucket W p h) i) as [E|E]; split.
  - intros h' [<-|Hh'] Hi; [lia|]. specialize (Hb h' Hh' Hi). lia.
  - destruct (N.max_spec v (rank W p h)) as [[_ ->]|[_ ->]].
    + right. exists h. repeat split; auto. now left.
    + destruct Hex as [->|(h' & Hh' & Hi & Hr)]; auto. right. exists h'. repeat split; auto.
      now right.
  - intros h' [<-|Hh'] Hi; [contradiction|]. auto.
  - destruct Hex as [->|(h' & Hh' & Hi & Hr)]; auto. right. exists h'. repeat split; auto.
    now right.
Qed.

Lemma is_register_app : forall W p H1 H2 i v1 v2, is_register W p H1 i v1 ->
  is_register W p H2 i v2 -> is_register W p (H2 ++ H1) i (N.max v1 v2).
Proof.
  intros W p H1 H2 i v1 v2 [B1 E1] [B2 E2]. split.
  - intros h Hh Hi. apply in_app_iff in Hh. destruct Hh as [Hh|Hh].
    + specialize (B2 h Hh Hi). lia. + specialize (B1 h Hh Hi). lia.
  - destruct (N.max_spec v1 v2) as [[_ ->]|[_ ->]].
    + destruct E2 as [->|(h & Hh & Hi & Hr)]; auto. right. exists h.
      rewrite in_app_iff. auto.
    + destruct E1 as [->|(h & Hh & Hi & Hr)]; auto. right. exists h.
      rewrite in_app_iff. auto.
Qed.

Lemma is_register_file_nil : forall W p,
  is_register_file W p [] (repeat 0 (N.to_nat (2 ^ p))).
Proof.
  intros W p. split; [rewrite repeat_length; lia|]. intros i v Hi.
  apply nth_error_In in Hi. apply repeat_spec in Hi. subst v. apply is_register_nil.
Qed.

Lemma is_register_file_ext : forall W p H1 H2 l, covers W p H1 H2 -> covers W p H2 H1 ->
  is_register_file W p H1 l -> is_register_file W p H2 l.
Proof.
  intros W p H1 H2 l C12 C21 [Hl Hn]. split; auto. intros i v Hi.
  eapply is_register_ext; eauto.
Qed.

Lemma is_register_file_unique : forall W p H l l', p <= W ->
  is_register_file W p H l -> is_register_file W p H l' -> l = l'.
Proof.
  intros W p H l l' Hp [Hl Hn] [Hl' Hn']. apply nth_error_ext. intros i.
  assert (EL : length l = length l') by lia.
  destruct (nth_error l i) as [v|] eqn:E1; destruct (nth_error l' i) as [v'|] eqn:E2; auto.
  - f_equal. rewrite <- (Nat2N.id i) in E1, E2. eapply is_register_unique; eauto.
  - apply nth_error_None in E2. assert (nth_error l i <> None) as C by congruence.
    apply nth_error_Some in C. lia.
  - apply nth_error_None in E1. assert (nth_error l' i <> None) as C by congruence.
    apply nth_error_Some in C. lia.
Qed.

Lemma is_register_file_insert : forall W p H l h old,
  is_register_file W p H l ->
  nth_error l (N.to_nat (bucket W p h)) = Some old ->
  is_register_file W p (h :: H) (update l (bucket W p h) (N.max old (rank W p h))).
Proof.
  intros W p H l h old [Hl Hn] Hold. unfold update. split.
  - now rewrite update_nat_length.
  - intros i v Hi.
    destruct (N.eq_dec (bucket W p h) i) as [E|E].
    + subst i. rewrite update_nat_same in Hi.
      2:{ apply nth_error_Some. congruence. }
      inv Hi. pose proof (is_register_cons W p h H _ _ (Hn _ _ Hold)) as R.
      now rewrite N.eqb_refl in R.
    + rewrite update_nat_other in Hi by lia.
      pose proof (is_register_cons W p h H _ _ (Hn _ _ Hi)) as R.
      apply N.eqb_neq in E. now rewrite E in R.
Qed.

(** ** Packed registers holding a set of hashes *)
Definition holds (sz W p : N) (H : list N) (r : registers) : Prop :=
  wf_regs sz r /\ r_count r = 2 ^ p /\ exact_zeros sz r /\
  is_register_file W p H (reg_iter sz r) /\ Forall (fun w => padding sz w = 0) (r_buf r) /\
  Forall (eq 0) (spare sz r).

Lemma holds_ext : forall sz W p H1 H2 r, covers W p H1 H2 -> covers W p H2 H1 ->
  holds sz W p H1 r -> holds sz W p H2 r.
Proof.
  intros sz W p H1 H2 r C12 C21 (A & B & C & D & E & G). 
  split; [auto|split; [auto|split; [auto|split; [|auto]]]].
  eapply is_register_file_ext; eauto.
Qed.

Lemma holds_same_set : forall sz W p H1 H2 r, same_set H1 H2 ->
  holds sz W p H1 r -> holds sz W p H2 r.
Proof.
  intros sz W p H1 H2 r S. apply holds_ext; apply covers_incl; intros x Hx; now apply S.
Qed.

Lemma holds_new : forall e sz W p, reg_size sz -> 2 ^ p + 6 < 2 ^ usize_bits e ->
  exists r, with_count e sz (2 ^ p) = Ret r /\ holds sz W p [] r.
Proof.
  intros e sz W p Hsz Hu.
  assert (count_per_word sz <= 6) by (destruct Hsz; subst; discriminate).
  destruct (with_count_spec e sz (2 ^ p) Hsz ltac:(lia)) as (r & E & A & B & C & D & F & G).
  exists r. split; auto. split; [auto|split; [auto|split; [auto|split; [|auto]]]].
  rewrite D. apply is_register_file_nil.
Qed.

Lemma map_Forall_eq : forall (f : N -> N) l l', map f l' = map f l ->
  Forall (fun w => f w = 0) l -> Forall (fun w => f w = 0) l'.
Proof.
  intros f l l' E F. rewrite Forall_forall in *. intros x Hx.
  assert (In (f x) (map f l)) by (rewrite <- E; now apply in_map).
  apply in_map_iff in H. destruct H as (y & Ey & Hy). rewrite <- Ey. auto.
Qed.

Lemma holds_insert : forall e sz W p H r h, reg_size sz -> p <= W -> W - p + 1 < 2 ^ sz ->
  h < 2 ^ W -> holds sz W p H r ->
  exists r', set_greater e sz r (bucket W p h) (rank W p h) = Ret r' /\ holds sz W p (h :: H) r'.
Proof.
  intros e sz W p H r h Hsz Hp Hr Hh (A & B & C & D & F & G).
  pose proof (rank_bounds W p h Hp) as Hrb. pose proof (bucket_lt W p h Hp Hh) as Hbk.
  destruct (set_greater_exact e sz r (bucket W p h) (rank W p h)) as
    (r' & old & E & A' & B' & C' & O & I & P & SP); auto; [lia|lia|].
  exists r'. split; auto. split; [auto|split; [lia|split; [auto|split; [|split]]]].
  - rewrite I. now apply is_register_file_insert.
  - eapply map_Forall_eq; eauto.
  - now rewrite SP.
Qed.

Lemma merge_registers_ok : forall e sz l k r,
  reg_size sz -> wf_regs sz r -> exact_zeros sz r ->
  Forall (fun w => padding sz w = 0) (r_buf r) ->
  Forall (fun v => v < 2 ^ sz) l -> k + N.of_nat (length l) <= r_count r ->
  exists r', for_each_enum k l (fun r i val => set_greater e sz r i val) r = Ret r' /\
    wf_regs sz r' /\ exact_zeros sz r' /\ r_count r' = r_count r /\
    Forall (fun w => padding sz w = 0) (r_buf r') /\ spare sz r' = spare sz r /\
    forall j old, nth_error (reg_iter sz r) (N.to_nat j) = Some old ->
      nth_error (reg_iter sz r') (N.to_nat j) =
      Some (if j <? k then old else
            match nth_error l (N.to_nat (j - k)) with Some v => N.max old v | None => old end).
Proof.
  intros e sz l. induction l as [|v l IH]; intros k r Hsz A C F Hl Hk; cbn [for_each_enum].
  - exists r. repeat split; auto; try apply A. intros j old Hj. rewrite Hj. f_equal.
    destruct (j <? k); auto. now destruct (N.to_nat (j - k)).
  - apply Forall_cons_iff in Hl. destruct Hl as [Hv Hl]. cbn [length] in Hk.
    destruct (set_greater_exact e sz r k v) as (r1 & old1 & E & A1 & B1 & C1 & O & I & P & SP);
      auto; [lia|].
    rewrite E, bind_ret.
    destruct (IH (k + 1) r1) as (r' & E' & A2 & C2 & B2 & F2 & SP2 & N2); auto; clear IH.
    + eapply map_Forall_eq; eauto.
    + lia.
    + exists r'. split; [auto|split; [auto|split; [auto|split; [lia|split; [auto|split; [congruence|]]]]]].
      intros j old Hj. rewrite I in N2. unfold update in N2.
      destruct (N.lt_trichotomy j k) as [Hlt|[->|Hgt]].
      * rewrite (N2 j old) by (rewrite update_nat_other by lia; auto).
        rewrite (proj2 (N.ltb_lt j k)) by auto. now rewrite (proj2 (N.ltb_lt j (k + 1))) by lia.
      * rewrite (N2 k (N.max old1 v)).
        2:{ apply update_nat_same. apply nth_error_Some. congruence. }
        rewrite (proj2 (N.ltb_lt k (k + 1))) by lia. rewrite N.ltb_irrefl, N.sub_diag. simpl.
        congruence.
      * rewrite (N2 j old) by (rewrite update_nat_other by lia; auto).
        rewrite (proj2 (N.ltb_ge j k)) by lia. rewrite (proj2 (N.ltb_ge j (k + 1))) by lia.
        replace (N.to_nat (j - k)) with (S (N.to_nat (j - (k + 1)))) by lia. reflexivity.
Qed.

Lemma holds_merge : forall e sz W p H1 H2 r1 l2, reg_size sz -> holds sz W p H1 r1 ->
  is_register_file W p H2 l2 -> Forall (fun v => v < 2 ^ sz) l2 ->
  exists r', for_each_enum 0 l2 (fun r i val => set_greater e sz r i val) r1 = Ret r' /\
    holds sz W p (H2 ++ H1) r'.
Proof.
  intros e sz W p H1 H2 r1 l2 Hsz (A & B & C & [DL D] & F & G) [DL2 D2] Hl2.
  destruct (merge_registers_ok e sz l2 0 r1) as (r' & E & A' & C' & B' & F' & SP & N'); auto; [lia|].
  exists r'. split; auto.
  split; [auto|split; [lia|split; [auto|split; [|split; [auto|now rewrite SP]]]]].
  assert (EL : length (reg_iter sz r') = length (reg_iter sz r1)).
  { rewrite !reg_iter_length by auto. lia. }
  split; [lia|]. intros i v Hi.
  destruct (nth_error (reg_iter sz r1) (N.to_nat i)) as [old|] eqn:Eo.
  - rewrite (N' i old Eo) in Hi. destruct (N.ltb_spec i 0) as [Hi0|_]; [lia|].
    rewrite N.sub_0_r in Hi. inv Hi.
    destruct (nth_error l2 (N.to_nat i)) as [v2|] eqn:E2.
    + apply is_register_app; auto.
    + apply nth_error_None in E2.
      assert (nth_error (reg_iter sz r1) (N.to_nat i) <> None) as Hc by congruence.
      apply nth_error_Some in Hc. lia.
  - apply nth_error_None in Eo.
    assert (nth_error (reg_iter sz r') (N.to_nat i) <> None) as Hc by congruence.
    apply nth_error_Some in Hc. lia.
Qed.

(** The packed registers are determined by the set of hashes. *)
Lemma flat_map_words_inj : forall sz b b', reg_size sz -> length b = length b' ->
  Forall (fun w => w < 2 ^ 32) b -> Forall (fun w => w < 2 ^ 32) b' ->
  Forall (fun w => padding sz w = 0) b -> Forall (fun w => padding sz w = 0) b' ->
  flat_map (word_registers sz) b = flat_map (word_registers sz) b' -> b = b'.
Proof.
  intros sz b. induction b as [|w b IH]; intros [|w' b'] Hsz HL L L' P P' E; try discriminate; auto.
  apply Forall_cons_iff in L, L', P, P'.
  destruct L as [Lw L], L' as [Lw' L'], P as [Pw P], P' as [Pw' P'].
  cbn [flat_map] in E.
  assert (E1 : word_registers sz w = word_registers sz w' /\
               flat_map (word_registers sz) b = flat_map (word_registers sz) b').
  { pose proof (word_registers_length sz w). pose proof (word_registers_length sz w').
    apply (f_equal (firstn (cpw sz))) in E as Ef. apply (f_equal (skipn (cpw sz))) in E as Es.
    rewrite !firstn_app, !skipn_app in *. rewrite H, H0, Nat.sub_diag in *.
    rewrite !firstn_O, !app_nil_r in Ef.
    rewrite (firstn_all2 (word_registers sz w)) in Ef by lia.
    rewrite (firstn_all2 (word_registers sz w')) in Ef by lia.
    rewrite (skipn_all2 (word_registers sz w)) in Es by lia.
    rewrite (skipn_all2 (word_registers sz w')) in Es by lia. simpl in Es. auto. }
  destruct E1 as [E1 E2]. f_equal.
  - apply (fld_ext sz); auto; try congruence. intros i Hi.
    pose proof (word_registers_nth sz w (N.to_nat i)) as N1.
    pose proof (word_registers_nth sz w' (N.to_nat i)) as N2.
    rewrite N2Nat.id in *. rewrite E1 in N1. unfold cpw in *.
    rewrite N1 in N2 by lia. specialize (N2 ltac:(lia)). congruence.
  - apply IH; auto.
Qed.

Lemma Forall_eq_repeat : forall (A : Type) (x : A) l, Forall (eq x) l -> l = repeat x (length l).
Proof. induction 1; simpl; congruence. Qed.

Lemma holds_unique : forall sz W p H r r', reg_size sz -> p <= W ->
  holds sz W p H r -> holds sz W p H r' -> r = r'.
Proof.
  intros sz W p H r r' Hsz Hp (A & B & C & D & F & G) (A' & B' & C' & D' & F' & G').
  pose proof (is_register_file_unique W p H _ _ Hp D D') as EI.
  unfold exact_zeros in *. rewrite EI in C. rewrite <- C' in C.
  unfold spare, reg_iter in *. rewrite B' in *. rewrite B in *.
  destruct A as [AL AF], A' as [AL' AF'].
  rewrite B in AL. rewrite B' in AL'.
  assert (HL : length (r_buf r) = length (r_buf r')) by lia.
  assert (Eb : r_buf r = r_buf r').
  { apply (flat_map_words_inj sz); auto.
    rewrite <- (firstn_skipn (N.to_nat (2 ^ p)) (flat_map _ (r_buf r))).
    rewrite <- (firstn_skipn (N.to_nat (2 ^ p)) (flat_map _ (r_buf r'))).
    rewrite EI. f_equal. rewrite (Forall_eq_repeat _ _ _ G), (Forall_eq_repeat _ _ _ G').
    f_equal. rewrite !skipn_length.
    rewrite !(flat_map_length_c _ _ _ (cpw sz) (word_registers_length sz)). lia. }
  destruct r, r'. simpl in *. congruence.
Qed.
