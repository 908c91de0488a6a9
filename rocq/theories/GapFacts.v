(** * How many codes fit into the sparse list *)
From Coq Require Import NArith ZArith Reals List Bool Lia Lra Permutation Sorted.
From Verif Require Import ModelRust ModelEnv ModelEncoding ModelPlus ModelHistory Spec SpecDist SpecProb SpecBuild SpecGap BitFacts EncFacts CodeFacts
  CountFacts DistFacts ProbFacts MomentFacts PlusInv PFInv ClaimFloat ClaimFacts ClaimDist AccFacts.
Import ListNotations.
Local Open Scope N_scope.

(** ** The union of two lists *)
Lemma gap_union : forall L L1 L2 b b1 b2, StronglySorted N.lt L -> StronglySorted N.lt L1 -> StronglySorted N.lt L2 ->
  b1 <= b -> b2 <= b -> List.Forall (N.le b) L -> (forall x, In x L <-> In x L1 \/ In x L2) ->
  gap_len b L <= gap_len b1 L1 + gap_len b2 L2.
Proof.
  induction L as [|x L IH]; intros L1 L2 b b1 b2 S S1 S2 B1 B2 F I; [cbn; lia|].
  apply StronglySorted_inv in S. destruct S as [S HX]. rewrite Forall_forall in HX.
  pose proof (Forall_inv F) as Hb. cbv beta in Hb.
  assert (FX : List.Forall (N.le x) L) by (apply Forall_forall; intros y Hy; specialize (HX y Hy); lia).
  assert (NX : ~ In x L) by (intros X; specialize (HX x X); lia).
  (* the head of a list that contains the least element *)
  assert (Hd : forall M, StronglySorted N.lt M -> (forall y, In y M -> In y (x :: L)) -> In x M ->
     exists M', M = x :: M' /\ StronglySorted N.lt M' /\ ~ In x M').
  { intros M SM IM XM. destruct M as [|y M]; [destruct XM|]. apply StronglySorted_inv in SM. destruct SM as [SM YM].
    rewrite Forall_forall in YM.
    assert (y = x) as ->.
    { destruct (IM y (or_introl eq_refl)) as [E|E]; [congruence|]. specialize (HX y E).
      destruct XM as [E'|E']; [congruence|]. specialize (YM x E'). lia. }
    exists M. split; [reflexivity|]. split; [exact SM|]. intros X. specialize (YM x X). lia. }
  assert (I1 : forall y, In y L1 -> In y (x :: L)) by (intros y Hy; apply I; now left).
  assert (I2 : forall y, In y L2 -> In y (x :: L)) by (intros y Hy; apply I; now right).
  destruct (in_dec N.eq_dec x L1) as [X1|X1]; destruct (in_dec N.eq_dec x L2) as [X2|X2].
  - destruct (Hd L1 S1 I1 X1) as (M1 & -> & T1 & N1). destruct (Hd L2 S2 I2 X2) as (M2 & -> & T2 & N2).
    cbn [gap_len]. pose proof (varint_len_mono (x - b) (x - b1) ltac:(lia)).
    specialize (IH M1 M2 x x x S T1 T2 (N.le_refl x) (N.le_refl x) FX).
    assert (gap_len x L <= gap_len x M1 + gap_len x M2); [|lia]. apply IH. intros y. split.
    + intros Hy. destruct (proj1 (I y) (or_intror Hy)) as [[E|E]|[E|E]]; try tauto; subst y; tauto.
    + intros Hy. assert (Y : In y (x :: L)) by (destruct Hy; [apply I1|apply I2]; now right).
      destruct Y as [<-|Y]; [tauto|exact Y].
  - destruct (Hd L1 S1 I1 X1) as (M1 & -> & T1 & N1). cbn [gap_len]. pose proof (varint_len_mono (x - b) (x - b1) ltac:(lia)).
    assert (gap_len x L <= gap_len x M1 + gap_len b2 L2); [|lia]. apply IH; auto; try lia. intros y. split.
    + intros Hy. destruct (proj1 (I y) (or_intror Hy)) as [[E|E]|E]; try tauto. subst y. tauto.
    + intros Hy. assert (Y : In y (x :: L)) by (destruct Hy; [apply I1; now right|now apply I2]).
      destruct Y as [<-|Y]; [tauto|exact Y].
  - destruct (Hd L2 S2 I2 X2) as (M2 & -> & T2 & N2). cbn [gap_len]. pose proof (varint_len_mono (x - b) (x - b2) ltac:(lia)).
    assert (gap_len x L <= gap_len b1 L1 + gap_len x M2); [|lia]. apply IH; auto; try lia. intros y. split.
    + intros Hy. destruct (proj1 (I y) (or_intror Hy)) as [E|[E|E]]; try tauto. subst y. tauto.
    + intros Hy. assert (Y : In y (x :: L)) by (destruct Hy; [now apply I1|apply I2; now right]).
      destruct Y as [<-|Y]; [tauto|exact Y].
  - destruct (proj1 (I x) (or_introl eq_refl)); tauto.
Qed.

(** ** Bytes by the number of codes *)
Lemma varint_len_2 : forall g, g < 2 ^ 26 -> varint_len g <= 2 + g / 2 ^ 14 + g / 2 ^ 21.
Proof.
  intros g Hg. unfold varint_len. destruct (N.eqb_spec g 0) as [->|H0]; [cbn; lia|]. set (a := g / 2 ^ 14). set (b := g / 2 ^ 21).
  destruct (N.lt_ge_cases g (2 ^ 14)) as [A|A].
  - assert (N.log2 g < 14) by (apply N.log2_lt_pow2; lia).
    assert (N.log2 g / 7 < 2) by (apply N.div_lt_upper_bound; lia). lia.
  - assert (1 <= a) by (apply N.div_le_lower_bound; lia).
    destruct (N.lt_ge_cases g (2 ^ 21)) as [C|C].
    + assert (N.log2 g < 21) by (apply N.log2_lt_pow2; lia).
      assert (N.log2 g / 7 < 3) by (apply N.div_lt_upper_bound; lia). lia.
    + assert (1 <= b) by (apply N.div_le_lower_bound; lia).
      assert (N.log2 g < 26) by (apply N.log2_lt_pow2; lia).
      assert (N.log2 g / 7 < 4) by (apply N.div_lt_upper_bound; lia). lia.
Qed.

Lemma div_split : forall a b c, c <> 0 -> a / c + b / c <= (a + b) / c.
Proof.
  intros a b c Hc. apply N.div_le_lower_bound; [exact Hc|].
  pose proof (N.mul_div_le a c Hc). pose proof (N.mul_div_le b c Hc). lia.
Qed.

Lemma gap_len_2 : forall L b, StronglySorted N.lt L -> List.Forall (fun x => b <= x < 2 ^ 26) L -> b < 2 ^ 26 ->
  gap_len b L <= 2 * N.of_nat (length L) + (2 ^ 26 - b) / 2 ^ 14 + (2 ^ 26 - b) / 2 ^ 21.
Proof.
  induction L as [|x L IH]; intros b S F Hb; [apply N.le_0_l|].
  apply StronglySorted_inv in S. destruct S as [S HX]. pose proof (Forall_inv F) as Hx. cbv beta in Hx.
  assert (F' : List.Forall (fun y => x <= y < 2 ^ 26) L).
  { apply Forall_inv_tail in F. rewrite Forall_forall in *. intros y Hy. specialize (F y Hy). specialize (HX y Hy). lia. }
  specialize (IH x S F' ltac:(lia)). cbn [gap_len length].
  pose proof (varint_len_2 (x - b) ltac:(lia)) as V.
  pose proof (div_split (x - b) (2 ^ 26 - x) (2 ^ 14) ltac:(discriminate)) as D1.
  pose proof (div_split (x - b) (2 ^ 26 - x) (2 ^ 21) ltac:(discriminate)) as D2.
  replace (x - b + (2 ^ 26 - x)) with (2 ^ 26 - b) in D1, D2 by lia.
  generalize dependent ((x - b) / 2 ^ 14). generalize dependent ((x - b) / 2 ^ 21). generalize dependent ((2 ^ 26 - x) / 2 ^ 14).
  generalize dependent ((2 ^ 26 - x) / 2 ^ 21). generalize ((2 ^ 26 - b) / 2 ^ 14) ((2 ^ 26 - b) / 2 ^ 21). generalize (varint_len (x - b)).
  intros. lia.
Qed.

Lemma sorted_filter : forall f L, StronglySorted N.lt L -> StronglySorted N.lt (filter f L).
Proof.
  intros f L S. induction S as [|x L S IH F]; cbn [filter]; [constructor|]. destruct (f x); [|exact IH].
  constructor; [exact IH|]. rewrite Forall_forall in *. intros y Hy. apply filter_In in Hy. apply F, Hy.
Qed.

Lemma code_parity : forall p h, N.odd (sparse_code p h) = (prefix25 h mod 2 ^ (25 - p) =? 0).
Proof.
  intros p h. unfold sparse_code. destruct (prefix25 h mod 2 ^ (25 - p) =? 0).
  - replace (prefix25 h * 2 ^ 7 + rank 64 25 h * 2 + 1) with (1 + 2 * (prefix25 h * 2 ^ 6 + rank 64 25 h)) by (change (2 ^ 7) with (2 * 2 ^ 6); lia).
    now rewrite N.odd_add_mul_2.
  - rewrite N.mul_comm, N.odd_mul. reflexivity.
Qed.

Lemma codes_split : forall p H L, List.Forall (fun h => h < 2 ^ 64) H -> is_code_list p H L ->
  N.of_nat (length L) <= gap_len 0 L <= 2 * plain L + 4 * flagged L + 4144.
Proof.
  intros p H L HH HL. split; [apply gap_len_length|]. destruct HL as [S E].
  assert (FL : forall x, In x L -> x < 2 ^ 32 /\ (N.even x = true -> x < 2 ^ 26)).
  { intros x Hx. apply E in Hx. apply in_map_iff in Hx. destruct Hx as (h & <- & Hh). rewrite Forall_forall in HH. specialize (HH h Hh).
    split; [now apply sparse_code_lt|]. intros X. pose proof (code_parity p h) as P. rewrite <- N.negb_even, X in P. cbn [negb] in P.
    unfold sparse_code. rewrite <- P. pose proof (prefix25_lt h HH). change (2 ^ 25) with 33554432 in *. change (2 ^ 26) with 67108864. lia. }
  assert (U : gap_len 0 L <= gap_len 0 (filter N.even L) + gap_len 0 (filter N.odd L)).
  { apply gap_union; try lia; try (now apply sorted_filter); try assumption.
    - apply Forall_forall. intros. lia.
    - intros x. rewrite !filter_In. destruct (N.even x) eqn:P; rewrite <- N.negb_even, P; cbn [negb]; intuition congruence. }
  assert (A : gap_len 0 (filter N.even L) <= 2 * plain L + (2 ^ 26 - 0) / 2 ^ 14 + (2 ^ 26 - 0) / 2 ^ 21).
  { apply gap_len_2; [now apply sorted_filter| |reflexivity]. apply Forall_forall. intros x Hx. apply filter_In in Hx.
    destruct Hx as [Hx P]. split; [lia|]. now apply FL. }
  assert (B : 2 ^ 28 * gap_len 0 (filter N.odd L) + 0 <= 2 ^ 28 * (4 * flagged L) + N.max 0 (2 ^ 32)).
  { apply gap_len_4; [now apply sorted_filter|]. apply Forall_forall. intros x Hx. apply filter_In in Hx. split; [lia|]. now apply FL. }
  change ((2 ^ 26 - 0) / 2 ^ 14) with 4096 in A. change ((2 ^ 26 - 0) / 2 ^ 21) with 32 in A.
  change (N.max 0 (2 ^ 32)) with (2 ^ 28 * 16) in B. change (2 ^ 28) with 268435456 in B. lia.
Qed.

Lemma parts_length : forall L, N.of_nat (length L) = plain L + flagged L.
Proof.
  intros L. unfold plain, flagged. induction L as [|x L IH]; [reflexivity|]. cbn [filter length].
  rewrite <- (N.negb_even x). destruct (N.even x); cbn [negb length]; lia.
Qed.

Lemma sparse_by_kind : forall (V : Type) e ord (h : hist V) L,
  build_std e -> valid MAX_PLUS h -> narrow (usize_bits e) h -> is_order ord -> is_code_list (hist_precision h) (hist_hashes h) L ->
  exists s, run_plus e (HCount ord h) = Ret s /\
    (2 * plain L + 4 * flagged L + 4144 <= sparse_limit (hist_precision h) -> is_sparse s = true).
Proof.
  intros V e ord h L Hb Hv Hn Ho HL.
  destruct (plus_sparse_iff V e ord h L Hb Hv Hn Ho HL) as (s & s' & c & E & E' & I).
  exists s'. split; [cbn [run_plus]; rewrite E, bind_ret, E'; reflexivity|].
  pose proof (codes_split _ _ L (hashes_lt V h) HL). intros B. apply I. lia.
Qed.

(** ** Merging *)
Lemma counted : forall (V : Type) e ord (h : hist V), build_std e -> valid MAX_PLUS h -> narrow (usize_bits e) h -> is_order ord ->
  exists s L, run_plus e (HCount ord h) = Ret s /\ is_code_list (hist_precision h) (hist_hashes h) L /\
    (is_sparse s = true <-> gap_len 0 L <= sparse_limit (hist_precision h)) /\
    (is_sparse s = true -> stored s = gap_len 0 L).
Proof.
  intros V e ord h Hb Hv Hn Ho.
  destruct (count_plus_ok V e ord h Hb Hv Hn Ho) as (s & s' & c & E & E' & _ & Hd & (T & Hf) & _).
  destruct (code_list_exists (hist_precision h) (hist_hashes h)) as (L & HL).
  exists s', L. split; [cbn [run_plus]; rewrite E, bind_ret, E'; reflexivity|]. split; [exact HL|].
  unfold is_sparse. destruct (hp_registers s') as [r|].
  - destruct Hf as (_ & _ & L' & HL' & HG). rewrite (code_list_unique _ _ _ _ HL HL'). split; [|discriminate].
    split; [discriminate|lia].
  - destruct Hf as (L' & HL' & HD & HG). rewrite (code_list_unique _ _ _ _ HL HL'). split; [tauto|]. intros _.
    unfold stored. rewrite <- (len_length _ (d_buf (hp_sparse s'))).
    change (len (d_buf (hp_sparse s'))) with (dif_len (hp_sparse s')). apply (dif_repr_len _ _ HD).
Qed.

Lemma merged_bytes : forall (V : Type) e ord (h1 h2 : hist V), build_std e -> valid MAX_PLUS h1 -> valid MAX_PLUS h2 ->
  narrow (usize_bits e) h1 -> narrow (usize_bits e) h2 -> is_order ord -> hist_precision h1 = hist_precision h2 ->
  exists s1 s2 s, run_plus e (HCount ord h1) = Ret s1 /\ run_plus e (HCount ord h2) = Ret s2 /\
    run_plus e (HCount ord (HMerge ord h1 h2)) = Ret s /\
    (is_sparse s1 = true -> is_sparse s2 = true -> stored s1 + stored s2 <= sparse_limit (hist_precision h1) -> is_sparse s = true) /\
    (is_sparse s = true -> is_sparse s1 = true /\ is_sparse s2 = true /\
       N.max (stored s1) (stored s2) <= stored s <= stored s1 + stored s2).
Proof.
  intros V e ord h1 h2 Hb V1 V2 N1 N2 Ho EP.
  destruct (counted V e ord h1 Hb V1 N1 Ho) as (s1 & L1 & E1 & C1 & I1 & B1).
  destruct (counted V e ord h2 Hb V2 N2 Ho) as (s2 & L2 & E2 & C2 & I2 & B2).
  destruct (counted V e ord (HMerge ord h1 h2) Hb (conj Ho (conj V1 V2)) (conj N1 N2) Ho) as (s & L & E & C & I & B).
  exists s1, s2, s. split; [exact E1|]. split; [exact E2|]. split; [exact E|].
  assert (EH : hist_hashes (HMerge ord h1 h2) = hist_hashes h2 ++ hist_hashes h1) by (cbn [hist_hashes]; now rewrite EP, N.eqb_refl).
  assert (EQ : hist_precision (HMerge ord h1 h2) = hist_precision h1) by reflexivity.
  rewrite EH, EQ in *. rewrite <- EP in *. clear EH EQ.
  assert (U : gap_len 0 L <= gap_len 0 L1 + gap_len 0 L2).
  { apply gap_union; try lia; try apply C; try apply C1; try apply C2.
    - apply Forall_forall. intros. lia.
    - intros x. rewrite (proj2 C x), (proj2 C1 x), (proj2 C2 x), map_app, in_app_iff. tauto. }
  pose proof (gap_len_incl _ _ _ _ _ C1 C (incl_appr _ (incl_refl _))) as M1.
  pose proof (gap_len_incl _ _ _ _ _ C2 C (incl_appl _ (incl_refl _))) as M2.
  split.
  - intros S1 S2 X. apply I. rewrite (B1 S1), (B2 S2) in X. lia.
  - intros S. assert (S1 : is_sparse s1 = true) by (apply I1; apply I in S; lia).
    assert (S2 : is_sparse s2 = true) by (apply I2; apply I in S; lia).
    split; [exact S1|]. split; [exact S2|]. rewrite (B S), (B1 S1), (B2 S2). lia.
Qed.

(** ** Random hashes *)
Local Open Scope R_scope.
Definition marks (f : N -> bool) (t : list N) : R := INR (length (filter f t)).

Lemma rsum_flat : forall (A B : Type) (g : B -> R) (h : A -> list B) l, rsum g (flat_map h l) = rsum (fun x => rsum g (h x)) l.
Proof. intros A B g h l. induction l as [|x l IH]; [reflexivity|]. cbn [flat_map]. rewrite rsum_app, rsum_cons, IH. reflexivity. Qed.

Lemma marks_total : forall f l n, INR (length l) * rsum (marks f) (lists_of l n) = INR n * marks f l * INR (length (lists_of l n)).
Proof.
  intros f l n. induction n as [|n IH].
  - cbn. unfold marks. cbn. ring.
  - cbn [lists_of]. rewrite rsum_flat.
    rewrite (rsum_ext _ (fun x => (if f x then INR (length (lists_of l n)) else 0) + rsum (marks f) (lists_of l n))).
    2:{ intros x _. rewrite rsum_map. destruct (f x) eqn:F.
        - rewrite (rsum_ext _ (fun t => 1 + marks f t)).
          2:{ intros t _. unfold marks. cbn [filter]. rewrite F. cbn [length]. rewrite S_INR. ring. }
          rewrite rsum_plus, rsum_const. ring.
        - rewrite (rsum_ext _ (marks f)); [ring|]. intros t _. unfold marks. cbn [filter]. now rewrite F. }
    rewrite rsum_plus, rsum_const.
    assert (X : rsum (fun x => if f x then INR (length (lists_of l n)) else 0) l = marks f l * INR (length (lists_of l n))).
    { clear. generalize (INR (length (lists_of l n))). intros c. unfold marks. induction l as [|x l IH]; [cbn; ring|].
      rewrite rsum_cons, IH. cbn [filter]. destruct (f x); [cbn [length]; rewrite S_INR|]; ring. }
    rewrite X. rewrite Rmult_plus_distr_l.
    replace (INR (length l) * (INR (length l) * rsum (marks f) (lists_of l n))) with
      (INR (length l) * (INR n * marks f l * INR (length (lists_of l n)))) by (now rewrite <- IH).
    change (flat_map (fun x => map (cons x) (lists_of l n)) l) with (lists_of l (S n)).
    rewrite !lists_of_length. cbn [Nat.pow]. rewrite mult_INR, S_INR. ring.
Qed.

Lemma markov : forall W n all (G : list N -> R) mu t (bad : list N -> Prop), enumerates (hash_list W n) all ->
  0 < t -> (forall hs, 0 <= G hs) -> rsum G all <= mu * INR (length all) -> (forall hs, hash_list W n hs -> bad hs -> t <= G hs) ->
  rare W n (mu / t) bad.
Proof.
  intros W n all G mu t bad E Ht P S B l D H.
  rewrite <- (total_R W n all E).
  apply Rmult_le_reg_r with (1 := Ht). unfold Rdiv.
  replace (mu * / t * INR (length all) * t) with (mu * INR (length all)) by (field; lra).
  eapply Rle_trans; [|exact S]. apply Rle_trans with (rsum G l).
  - rewrite <- (rsum_const t l). apply rsum_le. intros hs Hh. destruct (H hs Hh). auto.
  - apply rsum_incl; [exact D| |auto]. intros hs Hh. apply E, H, Hh.
Qed.

Local Open Scope N_scope.
Lemma residue_size : forall K B b, 0 < b <= B -> size_of (fun h => h < K * B /\ h mod B < b) (K * b).
Proof.
  intros K B b Hb. exists (map (fun i => i / b * B + i mod b) (range (K * b))).
  assert (D : forall i, (i / b * B + i mod b) / B = i / b /\ (i / b * B + i mod b) mod B = i mod b).
  { intros i. apply split_hash. pose proof (N.mod_lt i b ltac:(lia)). lia. }
  split; [split|].
  - apply FinFun.Injective_map_NoDup; [|apply range_NoDup]. intros i j E.
    destruct (D i) as [A1 A2]. destruct (D j) as [A3 A4]. rewrite E in A1, A2.
    rewrite (N.div_mod i b), (N.div_mod j b) by lia. congruence.
  - intros h. rewrite in_map_iff. split.
    + intros (i & <- & Hi). apply range_in in Hi. pose proof (N.mod_lt i b ltac:(lia)). split.
      * assert (i / b < K) by (apply N.div_lt_upper_bound; lia). nia.
      * rewrite (proj2 (D i)). lia.
    + intros [H1 H2]. exists (h / B * b + h mod B). destruct (split_hash b (h / B) (h mod B) H2) as [A1 A2]. rewrite A1, A2. split.
      * rewrite (N.div_mod h B) at 3 by lia. lia.
      * apply range_in. assert (h / B < K) by (apply N.div_lt_upper_bound; lia). nia.
  - rewrite map_length, range_length. lia.
Qed.

Definition is_flagged (p h : N) : bool := prefix25 h mod 2 ^ (25 - p) =? 0.

Lemma flagged_low : forall p h, p <= 25 -> (is_flagged p h = true <-> h mod 2 ^ (64 - p) < 2 ^ 39).
Proof.
  intros p h Hp. unfold is_flagged, prefix25. rewrite N.eqb_eq.
  replace (2 ^ (64 - p)) with (2 ^ 39 * 2 ^ (25 - p)) by (rewrite <- N.pow_add_r; f_equal; lia).
  assert (P1 : 2 ^ 39 <> 0) by discriminate. assert (P2 : 2 ^ (25 - p) <> 0) by (apply N.pow_nonzero; discriminate).
  rewrite N.mod_mul_r by assumption. pose proof (N.mod_lt h (2 ^ 39) P1). split.
  - intros ->. lia.
  - intros X. destruct (N.eq_dec ((h / 2 ^ 39) mod 2 ^ (25 - p)) 0) as [E|E]; [exact E|]. exfalso.
    revert X E. generalize ((h / 2 ^ 39) mod 2 ^ (25 - p)) (h mod 2 ^ 39). change (2 ^ 39) with 549755813888. clear. intros a b X E. lia.
Qed.

Lemma flagged_number : forall p, p <= 25 -> size_of (fun h => h < 2 ^ 64 /\ is_flagged p h = true) (2 ^ p * 2 ^ 39).
Proof.
  intros p Hp. eapply size_of_ext; [|apply (residue_size (2 ^ p) (2 ^ (64 - p)) (2 ^ 39))].
  - intros h. cbv beta. rewrite flagged_low by exact Hp. rewrite <- N.pow_add_r. replace (p + (64 - p)) with 64 by lia. tauto.
  - split; [reflexivity|]. apply N.pow_le_mono_r; lia.
Qed.

Lemma flagged_le : forall p H hs L, is_code_list p H L -> same_set H hs -> (length (filter N.odd L) <= length (filter (is_flagged p) hs))%nat.
Proof.
  intros p H hs L [S E] SS. rewrite <- (map_length (sparse_code p) (filter _ hs)).
  apply NoDup_incl_length; [apply sorted_nodup; now apply sorted_filter|].
  intros c Hc. apply filter_In in Hc. destruct Hc as [Hc O]. apply E in Hc. apply in_map_iff in Hc. destruct Hc as (h & <- & Hh).
  apply in_map, filter_In. split; [now apply SS|]. now rewrite code_parity in O.
Qed.

Local Open Scope R_scope.
Lemma flagged_mean : forall p n all, (p <= 25)%N -> enumerates (hash_list 64 n) all ->
  rsum (marks (is_flagged p)) all = INR n * / IZR (2 ^ Z.of_N (25 - p)) * INR (length all).
Proof.
  intros p n all Hp E.
  assert (S : size_of (fun h => h < 2 ^ 64)%N (2 ^ 64)).
  { apply size_of_has. eapply has_size_ext; [|apply (seq_size 0 (2 ^ 64))]. intros x. cbv beta. lia. }
  destruct S as (l & [ND IL] & LL).
  assert (EL : enumerates (hash_list 64 n) (lists_of l n)).
  { split.
    - clear - ND. induction n; cbn [lists_of]; [repeat constructor; intros []|]. now apply nodup_flat.
    - intros t. rewrite lists_of_in. unfold hash_list. split; intros [? F]; (split; [assumption|]); (eapply Forall_impl; [|exact F]); intros x; apply IL. }
  rewrite (rsum_perm _ all (lists_of l n)) by (eapply enum_perm; eassumption).
  rewrite (enum_length _ _ _ _ E EL).
  assert (M : marks (is_flagged p) l = IZR (Z.of_N (2 ^ p * 2 ^ 39))).
  { unfold marks. rewrite INR_IZR_INZ, <- nat_N_Z. do 2 f_equal.
    apply (size_of_unique _ (fun h => h < 2 ^ 64 /\ is_flagged p h = true)%N); [|now apply flagged_number].
    exists (filter (is_flagged p) l). split; [|reflexivity]. split; [now apply NoDup_filter|].
    intros h. rewrite filter_In, (IL h). reflexivity. }
  assert (T : INR (length l) = IZR (Z.of_N (2 ^ 64))) by (rewrite INR_IZR_INZ, <- nat_N_Z, LL; reflexivity).
  pose proof (marks_total (is_flagged p) l n) as X. rewrite M, T in X.
  assert (Q : IZR (Z.of_N (2 ^ 64)) = IZR (Z.of_N (2 ^ p * 2 ^ 39)) * IZR (2 ^ Z.of_N (25 - p))).
  { rewrite <- mult_IZR. f_equal. rewrite <- (N2Z.inj_pow 2), <- N2Z.inj_mul. f_equal. rewrite <- !N.pow_add_r. f_equal. lia. }
  assert (P1 : 0 < IZR (2 ^ Z.of_N (25 - p))) by (apply pow2_pos; lia).
  assert (P2 : 0 < IZR (Z.of_N (2 ^ p * 2 ^ 39))).
  { apply IZR_lt. change 0%Z with (Z.of_N 0). apply N2Z.inj_lt. apply N.mul_pos_pos; [apply N.neq_0_lt_0, N.pow_nonzero; discriminate|reflexivity]. }
  rewrite Q in X. apply Rmult_eq_reg_l with (IZR (Z.of_N (2 ^ p * 2 ^ 39)) * IZR (2 ^ Z.of_N (25 - p))).
  2:{ apply Rgt_not_eq. now apply Rmult_lt_0_compat. }
  rewrite X. field. lra.
Qed.

Theorem sparse_chance : forall e p n, build_std e -> (4 <= p <= 18)%N -> (2 * N.of_nat n + 4144 < sparse_limit p)%N ->
  rare 64 n (2 * INR n / IZR (2 ^ Z.of_N (25 - p)) / IZR (Z.of_N (sparse_limit p - 2 * N.of_nat n - 4144)))
    (fun hs => ~ plus_sparse e p hs).
Proof.
  intros e p n Hb Hp Hn. destruct (hash_lists_exist 64 n) as (all & E).
  set (t := (sparse_limit p - 2 * N.of_nat n - 4144)%N).
  assert (Ht : 0 < IZR (Z.of_N t)) by (apply IZR_lt; subst t; lia).
  apply (markov 64 n all (fun hs => 2 * marks (is_flagged p) hs)); [exact E|exact Ht| | |].
  - intros hs. unfold marks. pose proof (pos_INR (length (filter (is_flagged p) hs))). lra.
  - rewrite rsum_scal, (flagged_mean p n all ltac:(lia) E). unfold Rdiv. lra.
  - intros hs [LH FH] Bad. apply Rnot_lt_le. intros Lt. apply Bad. clear Bad.
    intros V ord h Hv Hnw Ho EP SS.
    destruct (code_list_exists (hist_precision h) (hist_hashes h)) as (L & HL).
    destruct (sparse_by_kind V e ord h L Hb Hv Hnw Ho HL) as (s & Es & I). exists s. split; [exact Es|]. apply I.
    pose proof (code_list_le _ _ _ _ HL SS) as C1. pose proof (flagged_le _ _ _ _ HL SS) as C2. pose proof (parts_length L) as C3.
    rewrite EP in *. unfold marks in Lt.
    assert (C4 : (2 * N.of_nat (length (filter (is_flagged p) hs)) < t)%N).
    { apply N2Z.inj_lt. apply lt_IZR. rewrite N2Z.inj_mul, mult_IZR, nat_N_Z, <- INR_IZR_INZ. exact Lt. }
    unfold flagged in *. subst t. rewrite LH in C1. lia.
Qed.
