(** * From the cardinalities of exp.py through the evaluation program to its statistics *)
From Coq Require Import String.
From Coq Require Import NArith ZArith Reals List Bool Permutation Lia Lra.
From Flocq Require Import Core BinarySingleNaN.
From Verif Require Import ModelRust ModelF64 ModelEnv ModelCommon ModelPlus ModelHistory ModelEval ModelFiles ModelExp
  Spec SpecBuild SpecRust SpecEval SpecFiles SpecExp F64Facts TextFacts PathFacts PoolFacts FilesFacts FilesMain RiskFacts ExpFacts ExpStats.
Import ListNotations.
Local Open Scope R_scope.

(** ** The range of the cardinalities *)
Lemma step_up : forall k, series (S k) <= 1.0071 * series k.
Proof. intros k. destruct (series_step k) as [_ U]. pose proof (series_ge_1 k). rewrite u_val in U. nra. Qed.

Lemma reach_up : forall max K, (1 <= max)%Z -> first_reach max K -> series K <= 1.0071 * IZR max.
Proof.
  intros max K M (A & _). apply IZR_le in M. destruct K as [|K]; [cbn [series]; lra|]. destruct (A K (Nat.lt_succ_diag_r K)) as [L _].
  pose proof (step_up K). lra.
Qed.

Theorem cards_range : forall max, (1 <= max <= 2 ^ 1023)%Z -> exists l,
  generate_cardinalities max = Ret l /\ increasing l /\ (exists l', l = 1%Z :: l') /\
  Forall (fun z => (1 <= z)%Z /\ IZR z <= 1.0071 * IZR max) l /\ (exists z, In z l /\ (max <= z)%Z) /\
  forall t, 1 <= t <= IZR max -> exists z, In z l /\ IZR z <= t < 1.0071 * (IZR z + 1).
Proof.
  intros max (M1 & M2). destruct (cards_exact max) as (K & R & A & _). pose proof (reach_up max K M1 R) as U.
  assert (B : IZR max <= bpow radix2 1023) by (rewrite <- (IZR_Zpower radix2) by lia; apply IZR_le; exact M2).
  assert (B2 : bpow radix2 1024 = 2 * bpow radix2 1023) by (change 1024%Z with (1023 + 1)%Z; rewrite bpow_plus; cbn [bpow radix2]; change (IZR (Z.pow_pos radix2 1)) with 2; lra).
  assert (B3 : 0 < bpow radix2 1023) by apply bpow_gt_0.
  destruct A as (l & E & I & F); [lra|]. exists l. split; [exact E|]. split; [exact I|].
  assert (Z1 : forall z, In z l -> (1 <= z)%Z).
  { intros z Hz. apply F in Hz. destruct Hz as (k & _ & ->). apply Zfloor_lub, series_ge_1. }
  assert (I1 : In 1%Z l) by (apply F; exists 0%nat; split; [lia|]; cbn [series]; now rewrite Zfloor_IZR).
  split; [|split; [|split]].
  - destruct I as [|x l Fx I]; [destruct I1|]. destruct I1 as [->|I1]; [eauto|]. rewrite Forall_forall in Fx. specialize (Fx 1%Z I1).
    specialize (Z1 x (or_introl eq_refl)). lia.
  - apply Forall_forall. intros z Hz. split; [now apply Z1|]. apply F in Hz. destruct Hz as (k & Hk & ->).
    eapply Rle_trans; [apply Zfloor_lb|]. pose proof (series_mono k K Hk). lra.
  - exists (Zfloor (series K)). split; [apply F; eauto|]. apply Zfloor_lub. destruct R as (_ & [R|R]); lra.
  - intros t (T1 & T2).
    assert (X : forall n, (n <= K)%nat -> (exists k, (k < n)%nat /\ series k <= t < series (S k)) \/ series n <= t).
    { induction n as [|n IH]; intros Hn; [right; cbn [series]; lra|]. destruct IH as [(k & L & H)|H]; [lia|left; exists k; split; [lia|exact H]|].
      destruct (Rlt_or_le t (series (S n))) as [L|L]; [left; exists n; split; [lia|lra]|now right]. }
    destruct (X K (le_n K)) as [(k & L & H1 & H2)|H].
    + exists (Zfloor (series k)). split; [apply F; exists k; split; [lia|reflexivity]|]. pose proof (Zfloor_lb (series k)). pose proof (Zfloor_ub (series k)).
      pose proof (step_up k). lra.
    + exists (Zfloor (series K)). split; [apply F; eauto|]. pose proof (Zfloor_lb (series K)). pose proof (Zfloor_ub (series K)).
      destruct R as (_ & [R|R]); [|lra]. pose proof (series_ge_1 K). lra.
Qed.

Lemma cards_overflow : forall max, (2 ^ 1024 <= max)%Z -> generate_cardinalities max = Panic.
Proof.
  intros max M. destruct (cards_exact max) as (K & (_ & R) & _ & A). apply A. apply IZR_le in M.
  change (2 ^ 1024)%Z with (radix2 ^ 1024)%Z in M. rewrite (IZR_Zpower radix2) in M by lia. destruct R as [R|R]; lra.
Qed.

Lemma cards_small : forall max, (max <= 1)%Z -> generate_cardinalities max = Ret [1%Z].
Proof.
  intros max M. destruct (cards_exact max) as (K & R & A & _). assert (K = 0)%nat as ->.
  { apply (reach_unique max K 0 R). split; [intros k Hk; lia|]. left. cbn [series]. now apply IZR_le. }
  destruct A as (l & E & I & F); [cbn [series]; apply big_1|]. rewrite E. f_equal.
  assert (G : forall z, In z l <-> z = 1%Z).
  { intros z. rewrite F. cbn [series]. split.
    - intros (k & Hk & ->). replace k with 0%nat by lia. cbn [series]. now rewrite Zfloor_IZR.
    - intros ->. exists 0%nat. split; [lia|]. cbn [series]. now rewrite Zfloor_IZR. }
  destruct I as [|x l Fx I]; [exfalso; now apply (G 1%Z)|]. assert (x = 1%Z) as -> by (apply G; now left).
  destruct l as [|y l]; [reflexivity|]. assert (y = 1%Z) as -> by (apply G; right; now left). apply Forall_inv in Fx. lia.
Qed.

(** ** The file of cardinalities *)
Local Open Scope N_scope.

Lemma joined_lines : forall ls, Forall (fun l => l <> [] /\ ~ In 10 l /\ ~ In 13 l) ls -> lines_of (join_text [10] ls) ls.
Proof.
  intros ls F. induction F as [|l ls (A & B & C) F IH]; [constructor|]. destruct ls as [|l' ls]; cbn [join_text].
  - now constructor.
  - cbn [app]. constructor; [exact B| |exact IH]. intros t ->. apply C, in_or_app. right. now left.
Qed.

Lemma cards_file : forall w cards, Forall (fun z => 1 <= z /\ z < 2 ^ Z.of_N w)%Z cards ->
  number_file w (join_text [10] (map str_int cards)) (map Z.to_N cards).
Proof.
  intros w cards F. exists (map str_int cards).
  assert (S1 : forall z, (1 <= z)%Z -> str_int z = display_uint (Z.to_N z)).
  { intros z Hz. unfold str_int. destruct (Z.ltb_spec z 0); [lia|reflexivity]. }
  split.
  - apply joined_lines, Forall_map. eapply Forall_impl; [|exact F]. intros z (Z1 & _). rewrite (S1 z Z1).
    split; [apply (numeral_not_nil _ _ (display_numeral _))|]. split; intros I; apply (numeral_chars _ _ _ (display_numeral _)) in I; lia.
  - induction F as [|z cards (Z1 & Z2) F IH]; constructor; [|exact IH]. rewrite (S1 z Z1). split; [apply numeral_reads, display_numeral|].
    apply N2Z.inj_lt. rewrite Z2N.id by lia. rewrite N2Z.inj_pow. exact Z2.
Qed.

Theorem prepared : forall resolve dir path l max d, in_directory dir (ascii "cardinalities.dat") path -> resolve path = Some l ->
  (1 <= max <= 2 ^ 1023)%Z -> exists cards content d', generate_cardinalities max = Ret cards /\
  prepare_cardinalities resolve dir max d = Ret d' /\ only_changed resolve [path] d d' /\ has_file resolve d' path content /\
  forall w, (2 * max <= 2 ^ Z.of_N w)%Z -> number_file w content (map Z.to_N cards).
Proof.
  intros resolve dir path l max d D R M. destruct (cards_range max M) as (cards & E & _ & _ & F & _).
  exists cards, (join_text [10] (map str_int cards)), (set_file d l (join_text [10] (map str_int cards))). split; [exact E|].
  apply join_spec in D. change (ascii "cardinalities.dat") with (str "cardinalities.dat") in D. subst path.
  split; [unfold prepare_cardinalities; rewrite E; cbn [bind]; rewrite R; reflexivity|]. split; [|split].
  - intros l' N0. apply set_file_other. intros ->. apply N0. cbn. left. exact R.
  - exists l. split; [exact R|apply set_file_same].
  - intros w W. apply cards_file. eapply Forall_impl; [|exact F]. intros z (Z1 & Z2). split; [exact Z1|]. apply lt_IZR.
    apply IZR_le in W. rewrite mult_IZR in W. assert (1 <= IZR max)%R by (apply IZR_le; lia). lra.
Qed.

(** ** Lines and cardinalities *)
Lemma shown_bound : forall c k, shown c k -> k < 2 ^ 64.
Proof.
  intros c k (A & B & C & D). change (2 ^ 64) with 18446744073709551616. destruct c as [s|[|]| |s m e H].
  - specialize (B eq_refl). lia.
  - rewrite D by reflexivity. lia.
  - rewrite C by reflexivity. reflexivity.
  - rewrite A by reflexivity. lia.
  - specialize (B eq_refl). lia.
Qed.

Lemma first_draws_range : forall draws n w, (forall i, draws i < 2 ^ w) -> Forall (fun x => x < 2 ^ w) (first_draws draws n).
Proof. intros draws n w H. unfold first_draws. apply Forall_map, Forall_forall. intros; apply H. Qed.

Lemma plus_lines_all : forall e p draws cs out, build_std e -> 4 <= p <= 18 -> 2 * p < usize_bits e -> (forall i, draws i < 2 ^ 64) ->
  plus_card_lines e p draws cs out ->
  length out = length cs /\ forall j, (j < length cs)%nat -> exists k, nth_error out j = Some (largest (firstn (j + 1) cs), k) /\ k < 2 ^ 64.
Proof.
  intros e p draws cs out Hb Hp Hw Hd (L & H). split; [exact L|]. intros j Hj.
  set (n := largest (firstn (j + 1) cs)).
  destruct (inserts_ok p (first_draws draws n) _ Hp Hw (first_draws_range draws n 64 Hd)) as (V & W & P & HH).
  destruct (H j N (fun l => l) (inserts p (first_draws draws n)) Hj V W) as (c & k & _ & S & E).
  - intros l; apply Permutation_refl.
  - exact P.
  - intros x. now rewrite HH.
  - exists k. split; [exact E|now apply (shown_bound c)].
Qed.

Lemma pf_lines_all : forall e p draws cs out, build e -> 4 <= p <= 16 -> 2 * p < usize_bits e -> (forall i, draws i < 2 ^ 32) ->
  pf_card_lines e p draws cs out ->
  length out = length cs /\ forall j, (j < length cs)%nat -> exists k, nth_error out j = Some (largest (firstn (j + 1) cs), k) /\ k < 2 ^ 64.
Proof.
  intros e p draws cs out Hb Hp Hw Hd (L & H). split; [exact L|]. intros j Hj.
  set (n := largest (firstn (j + 1) cs)).
  assert (D64 : Forall (fun x => x < 2 ^ 64) (first_draws draws n)).
  { eapply Forall_impl; [|apply (first_draws_range draws n 32 Hd)]. cbv beta. intros a Ha. change (2 ^ 64) with 18446744073709551616. change (2 ^ 32) with 4294967296 in Ha. lia. }
  destruct (inserts_ok p (first_draws draws n) _ ltac:(lia) Hw D64) as (_ & W & P & HH).
  assert (V : valid MAX_PF (inserts p (first_draws draws n))).
  { clear - Hp. induction (first_draws draws n) as [|x hs IH]; [exact Hp|]. split; [intros l; apply Permutation_refl|exact IH]. }
  destruct (H j N (inserts p (first_draws draws n)) Hj V W P) as (c & k & _ & S & E).
  - rewrite HH. rewrite map_ext_in with (g := fun x => x); [rewrite map_id; intros x; reflexivity|].
    intros x I. apply N.mod_small. pose proof (first_draws_range draws n 32 Hd) as F. rewrite Forall_forall in F. now apply F.
  - exists k. split; [exact E|now apply (shown_bound c)].
Qed.

Lemma largest_last : forall l x, Forall (fun y => y <= x) l -> largest (l ++ [x]) = x.
Proof.
  intros l x F. unfold largest. induction F as [|y l Y F IH]; [cbn; lia|]. cbn [app fold_right]. rewrite IH. lia.
Qed.

Lemma increasing_largest : forall cards j z, increasing cards -> Forall (fun z => 0 <= z)%Z cards -> nth_error cards j = Some z ->
  largest (firstn (j + 1) (map Z.to_N cards)) = Z.to_N z.
Proof.
  intros cards j z I P E.
  assert (S1 : firstn (j + 1) (map Z.to_N cards) = map Z.to_N (firstn j cards) ++ [Z.to_N z]).
  { clear I P. revert j E. induction cards as [|x cards IH]; intros [|j] E; try discriminate E; cbn [nth_error] in E.
    - injection E as ->. reflexivity.
    - cbn [map firstn app Nat.add]. f_equal. now apply IH. }
  rewrite S1. apply largest_last, Forall_map. clear S1. revert j E. induction I as [|x cards F I IH]; intros [|j] E; try discriminate E; cbn [firstn].
  - constructor.
  - cbn [nth_error] in E. constructor.
    + rewrite Forall_forall in F. apply nth_error_In in E. specialize (F z E). lia.
    + inversion P; subst. now apply IH.
Qed.

(** ** Rows of files that have the same cardinalities *)
Lemma row_full : forall (outs : list (list (N * N))) j, Forall (fun out => (j < length out)%nat) outs ->
  exists l, row outs j = l /\ Forall2 (fun out est => nth_error out j = Some est) outs l.
Proof.
  intros outs j F. induction F as [|out outs L F (l & E & G)]; [exists []; split; [reflexivity|constructor]|].
  destruct (nth_error out j) as [est|] eqn:Q; [|apply nth_error_None in Q; lia]. exists (est :: l). split.
  - unfold row in *. cbn [flat_map]. rewrite Q, E. reflexivity.
  - now constructor.
Qed.

Lemma same_length_max : forall (outs : list (list (N * N))) n, Forall (fun out => length out = n) outs -> outs <> [] ->
  fold_right Nat.max O (map (@length (N * N)) outs) = n.
Proof.
  intros outs n F N0. induction F as [|out outs E F IH]; [congruence|]. cbn [map fold_right]. destruct outs as [|o outs]; [cbn; lia|].
  rewrite IH by discriminate. lia.
Qed.

Theorem card_statistics : forall cards outs contents, increasing cards -> Forall (fun z => 1 <= z <= 2 ^ 53)%Z cards -> outs <> [] ->
  Forall (fun out => length out = length cards /\
    forall j, (j < length cards)%nat -> exists k, nth_error out j = Some (largest (firstn (j + 1) (map Z.to_N cards)), k) /\ k < 2 ^ 64) outs ->
  Forall2 estimate_file outs contents ->
  exists rows, calculate_statistics contents = Ret rows /\ map fst rows = cards /\
  forall j z errs, nth_error rows j = Some (z, errs) ->
    Forall2 (fun out x => exists k, nth_error out j = Some (Z.to_N z, k) /\ relative_error_of (Z.to_N z) k x) outs errs.
Proof.
  intros cards outs contents I C N0 L E.
  assert (P0 : Forall (fun z => 0 <= z)%Z cards) by (eapply Forall_impl; [|exact C]; cbv beta; lia).
  assert (NE : forall out j z, In out outs -> nth_error cards j = Some z -> exists k, nth_error out j = Some (Z.to_N z, k) /\ k < 2 ^ 64).
  { intros out j z Io Ez. rewrite Forall_forall in L. destruct (L out Io) as (_ & H). destruct (H j) as (k & A & B).
    - apply nth_error_Some. congruence.
    - exists k. rewrite (increasing_largest cards j z I P0 Ez) in A. tauto. }
  assert (LEN : Forall (fun out => length out = length cards) outs) by (eapply Forall_impl; [|exact L]; cbv beta; tauto).
  assert (RD : Forall (Forall readable) outs).
  { apply Forall_forall. intros out Io. apply Forall_forall. intros est Ie. apply In_nth_error in Ie. destruct Ie as (j & Ej).
    assert (Hj : (j < length cards)%nat).
    { rewrite Forall_forall in LEN. rewrite <- (LEN out Io). apply nth_error_Some. congruence. }
    destruct (nth_error cards j) as [z|] eqn:Ez; [|apply nth_error_None in Ez; lia]. destruct (NE out j z Io Ez) as (k & A & B).
    rewrite A in Ej. injection Ej as <-. rewrite Forall_forall in C. specialize (C z (nth_error_In _ _ Ez)).
    split; cbn [fst snd]; [|exact B]. change (2 ^ 53) with (Z.to_N (2 ^ 53)). lia. }
  destruct (statistics_exact outs contents E RD) as (rows & ER & RL & RJ). exists rows. split; [exact ER|].
  rewrite (same_length_max outs (length cards) LEN N0) in RL.
  assert (ROW : forall j r, nth_error rows j = Some r -> nth_error cards j = Some (fst r) /\
    Forall2 (fun out x => exists k, nth_error out j = Some (Z.to_N (fst r), k) /\ relative_error_of (Z.to_N (fst r)) k x) outs (snd r)).
  { intros j r Er. destruct (RJ j r Er) as (c & k & rest & A & B & D).
    assert (Hj : (j < length cards)%nat) by (rewrite <- RL; apply nth_error_Some; congruence).
    destruct (nth_error cards j) as [z|] eqn:Ez; [|apply nth_error_None in Ez; lia].
    destruct (row_full outs j) as (l & El & G); [eapply Forall_impl; [|exact LEN]; cbv beta; lia|].
    rewrite El in A, D. assert (Z1 : (1 <= z)%Z) by (rewrite Forall_forall in C; specialize (C z (nth_error_In _ _ Ez)); lia).
    assert (FZ : Forall2 (fun out est => nth_error out j = Some est /\ fst est = Z.to_N z) outs l).
    { assert (NE' : forall out, In out outs -> exists k, nth_error out j = Some (Z.to_N z, k)) by (intros out Io; destruct (NE out j z Io Ez) as (k0 & A0 & _); eauto).
      clear - G NE'. induction G as [|out est outs l G1 G IH]; constructor.
      - split; [exact G1|]. destruct (NE' out (or_introl eq_refl)) as (k0 & A0). rewrite A0 in G1. now injection G1 as <-.
      - apply IH. intros o Io. apply NE'. now right. }
    assert (fst r = z).
    { rewrite B. subst l. destruct outs as [|o outs]; [congruence|]. inversion FZ as [|? ? ? ? (_ & Q)]; subst. cbn [fst] in Q. subst c. lia. }
    subst z. split; [reflexivity|]. clear - FZ D. revert D. generalize (snd r). intros errs D. revert errs D.
    induction FZ as [|out est outs l (G1 & G2) G IH]; intros errs D; inversion D as [|? x ? errs' X D']; subst; constructor; [|now apply IH].
    exists (snd est). rewrite <- G2. split; [now destruct est|exact X]. }
  split.
  - assert (X : forall (a b : list Z), length a = length b -> (forall j z, nth_error a j = Some z -> nth_error b j = Some z) -> a = b).
    { induction a as [|x a IH]; intros [|y b] Q H; try discriminate Q; [reflexivity|]. f_equal.
      - specialize (H 0%nat x eq_refl). cbn in H. congruence.
      - apply IH; [now injection Q|]. intros j z Hz. exact (H (S j) z Hz). }
    apply X; [now rewrite map_length|]. intros j z Hz. rewrite nth_error_map in Hz. destruct (nth_error rows j) as [r|] eqn:Er; [|discriminate Hz].
    injection Hz as <-. exact (proj1 (ROW j r Er)).
  - intros j z errs Er. exact (proj2 (ROW j (z, errs) Er)).
Qed.

(** ** All together *)
Section Pipeline.
Variable e : env.
Variable resolve : list N -> option N.
Variable draws : N -> N -> N.
Variable ords : N -> N -> list N -> list N.
Hypothesis HU : 0 < usize_bits e.

(** The files of estimates at [paths] are there, and have the statistics they should have for [cards]. *)
Definition good_statistics (lines : N -> list N -> list (N * N) -> Prop) (cards : list Z) (n : N) (paths : list (list N)) (d : disk) : Prop :=
  exists outs contents rows, Forall2 (fun k out => lines k (map Z.to_N cards) out) (first_draws (fun r => r) n) outs /\
    Forall2 (has_file resolve d) paths contents /\ Forall2 estimate_file outs contents /\
    calculate_statistics contents = Ret rows /\ map fst rows = cards /\
    forall j z errs, nth_error rows j = Some (z, errs) ->
      Forall2 (fun out x => exists k, nth_error out j = Some (Z.to_N z, k) /\ relative_error_of (Z.to_N z) k x) outs errs.

Lemma collect : forall (lines : N -> list N -> list (N * N) -> Prop) max cards n paths d, 0 < n ->
  (1 <= max)%Z -> (2 * max <= 2 ^ 53)%Z -> generate_cardinalities max = Ret cards ->
  (forall k out, lines k (map Z.to_N cards) out -> length out = length (map Z.to_N cards) /\
     forall j, (j < length (map Z.to_N cards))%nat -> exists x, nth_error out j = Some (largest (firstn (j + 1) (map Z.to_N cards)), x) /\ x < 2 ^ 64) ->
  Forall2 (fun k path => exists content out, has_file resolve d path content /\ lines k (map Z.to_N cards) out /\ estimate_file out content)
    (first_draws (fun r => r) n) paths ->
  good_statistics lines cards n paths d.
Proof.
  intros lines max cards n paths d Hn M1 M2 E A F.
  assert (Q : exists outs contents, Forall2 (fun k out => lines k (map Z.to_N cards) out) (first_draws (fun r => r) n) outs /\
    Forall2 (has_file resolve d) paths contents /\ Forall2 estimate_file outs contents).
  { clear - F. induction F as [|k path ks paths (content & out & H1 & H2 & H3) _ (outs & contents & G1 & G2 & G3)].
    - exists [], []. repeat split; constructor.
    - exists (out :: outs), (content :: contents). repeat split; now constructor. }
  destruct Q as (outs & contents & G1 & G2 & G3). exists outs, contents.
  destruct (cards_range max) as (cards' & E' & I & _ & R & _).
  { split; [exact M1|]. assert (2 ^ 53 <= 2 ^ 1023)%Z by (apply Z.pow_le_mono_r; lia). lia. }
  rewrite E in E'. injection E' as <-.
  destruct (card_statistics cards outs contents I) as (rows & R1 & R2 & R3).
  - eapply Forall_impl; [|exact R]. intros z (Z1 & Z2). split; [exact Z1|]. apply le_IZR. apply IZR_le in M1, M2. rewrite mult_IZR in M2. lra.
  - intros ->. inversion G1 as [Q|]. symmetry in Q. unfold first_draws in Q. apply map_eq_nil in Q. destruct (N.to_nat n) eqn:Z0; [lia|discriminate Q].
  - clear - G1 A. rewrite map_length in A. induction G1 as [|k out ks outs H _ IH]; constructor; [|exact IH]. apply (A k out H).
  - exact G3.
  - exists rows. tauto.
Qed.

Lemma pipeline_cards_plus : forall max jobs precision p dir file output runs n names paths d,
  build_std e -> (forall k i, is_order (ords k i)) -> 2 * p < usize_bits e -> jobs_ok e jobs ->
  reads precision p -> 4 <= p <= 18 -> reads runs n -> 0 < n < 2 ^ usize_bits e -> (forall k i, draws k i < 2 ^ 64) ->
  (1 <= max)%Z -> (2 * max <= 2 ^ 53)%Z -> (2 * max <= 2 ^ Z.of_N (usize_bits e))%Z ->
  in_directory dir (ascii "cardinalities.dat") file -> resolve file <> None ->
  Forall2 (cards_name p (ascii "64")) (first_draws (fun r => r) n) names -> Forall2 (in_directory output) names paths -> separate resolve paths ->
  ~ In (resolve file) (map resolve paths) ->
  let args := RunArgs (Some (ascii "hllp")) (Some (ascii "cardinalities")) (Some precision) None (Some runs) (Some file) (Some output) in
  exists cards d1, generate_cardinalities max = Ret cards /\ prepare_cardinalities resolve dir max d = Ret d1 /\
  let result := main e resolve draws ords jobs (Run args) d1 in
  (exists r, result r) /\
  forall r, result r -> exists d2, r = Ret d2 /\ only_changed resolve (file :: paths) d d2 /\
    good_statistics (fun k cs out => plus_card_lines e p (draws k) cs out) cards n paths d2.
Proof.
  intros max jobs precision p dir file output runs n names paths d B O W J RP P RN (N1 & N2) HD M1 M2 M3 D RF HN HP SP AP args.
  destruct (resolve file) as [l|] eqn:RE; [|congruence].
  assert (MB : (1 <= max <= 2 ^ 1023)%Z) by (split; [exact M1|]; assert (2 ^ 53 <= 2 ^ 1023)%Z by (apply Z.pow_le_mono_r; lia); lia).
  destruct (prepared resolve dir file l max d D RE MB) as (cards & content & d1 & E1 & E2 & OC & HF & NF).
  exists cards, d1. split; [exact E1|]. split; [exact E2|]. intros result.
  specialize (NF (usize_bits e) M3) as NF1. rewrite <- RE in AP.
  assert (M64 : (2 * max <= 2 ^ Z.of_N 64)%Z) by (assert (2 ^ 53 <= 2 ^ Z.of_N 64)%Z by (apply Z.pow_le_mono_r; lia); lia).
  destruct (run_hllp_cards e resolve draws ords HU jobs precision p output runs n file content (map Z.to_N cards) names paths d1 B O W J RP P RN N2 HD HF NF1
    (number_file_bound resolve draws ords 64 content _ (NF 64 M64)) HN HP SP AP) as (A1 & A2).
  split; [exact A1|]. intros r R. destruct (A2 r R) as (d2 & -> & OC2 & F). exists d2. split; [reflexivity|]. split.
  - intros l' N0. cbn [map In] in N0. rewrite OC2 by tauto. apply OC. cbn. tauto.
  - apply (collect _ max); try assumption. intros k out. apply plus_lines_all; auto.
Qed.

Lemma pipeline_cards_pf : forall max jobs precision p dir file output runs n names paths d,
  build e -> 2 * p < usize_bits e -> jobs_ok e jobs ->
  reads precision p -> 4 <= p <= 16 -> reads runs n -> 0 < n < 2 ^ usize_bits e -> (forall k i, draws k i < 2 ^ 32) ->
  (1 <= max)%Z -> (2 * max <= 2 ^ 53)%Z -> (2 * max <= 2 ^ Z.of_N (usize_bits e))%Z ->
  in_directory dir (ascii "cardinalities.dat") file -> resolve file <> None ->
  Forall2 (cards_name p (ascii "32")) (first_draws (fun r => r) n) names -> Forall2 (in_directory output) names paths -> separate resolve paths ->
  ~ In (resolve file) (map resolve paths) ->
  let args := RunArgs (Some (ascii "hll")) (Some (ascii "cardinalities")) (Some precision) None (Some runs) (Some file) (Some output) in
  exists cards d1, generate_cardinalities max = Ret cards /\ prepare_cardinalities resolve dir max d = Ret d1 /\
  let result := main e resolve draws ords jobs (Run args) d1 in
  (exists r, result r) /\
  forall r, result r -> exists d2, r = Ret d2 /\ only_changed resolve (file :: paths) d d2 /\
    good_statistics (fun k cs out => pf_card_lines e p (draws k) cs out) cards n paths d2.
Proof.
  intros max jobs precision p dir file output runs n names paths d B W J RP P RN (N1 & N2) HD M1 M2 M3 D RF HN HP SP AP args.
  destruct (resolve file) as [l|] eqn:RE; [|congruence].
  assert (MB : (1 <= max <= 2 ^ 1023)%Z) by (split; [exact M1|]; assert (2 ^ 53 <= 2 ^ 1023)%Z by (apply Z.pow_le_mono_r; lia); lia).
  destruct (prepared resolve dir file l max d D RE MB) as (cards & content & d1 & E1 & E2 & OC & HF & NF).
  exists cards, d1. split; [exact E1|]. split; [exact E2|]. intros result.
  specialize (NF (usize_bits e) M3) as NF1. rewrite <- RE in AP.
  assert (M64 : (2 * max <= 2 ^ Z.of_N 64)%Z) by (assert (2 ^ 53 <= 2 ^ Z.of_N 64)%Z by (apply Z.pow_le_mono_r; lia); lia).
  destruct (run_hll_cards e resolve draws ords HU jobs precision p output runs n file content (map Z.to_N cards) names paths d1 B W J RP P RN N2 HD HF NF1
    (number_file_bound resolve draws ords 64 content _ (NF 64 M64)) HN HP SP AP) as (A1 & A2).
  split; [exact A1|]. intros r R. destruct (A2 r R) as (d2 & -> & OC2 & F). exists d2. split; [reflexivity|]. split.
  - intros l' N0. cbn [map In] in N0. rewrite OC2 by tauto. apply OC. cbn. tauto.
  - apply (collect _ max); try assumption. intros k out. apply pf_lines_all; auto.
Qed.
End Pipeline.

(** ** Examples *)
Lemma series_bounds : forall k, ((1.007 * (1 - / 2 ^ 53) ^ 2) ^ k <= series k <= (1.007 * (1 + / 2 ^ 53) ^ 2) ^ k)%R.
Proof.
  intros k. pose proof (series_powers k) as H. rewrite u_val in H. replace (2 ^ 53)%R with 9007199254740992%R by lra. exact H.
Qed.

Lemma row_statistics : forall files contents, Forall2 estimate_file files contents ->
  Forall (Forall (fun est => 1 <= fst est <= 2 ^ 53 /\ snd est < 2 ^ 64)) files ->
  exists rows, calculate_statistics contents = Ret rows /\
  length rows = fold_right Nat.max O (map (@length (N * N)) files) /\
  forall j r, nth_error rows j = Some r -> exists c k rest, row files j = (c, k) :: rest /\ fst r = Z.of_N c /\
    Forall2 (fun est x => relative_error_of (fst est) (snd est) x) (row files j) (snd r).
Proof. exact statistics_exact. Qed.

Lemma exp_example :
  generate_cardinalities 12 = Ret [1; 2; 3; 4; 5; 6; 7; 8; 9; 10; 11; 12]%Z /\
  generate_cardinalities (2 ^ 1024) = Panic /\
  prepare_cardinalities (fun _ => Some 0) (ascii "c/") 3 (fun _ => None) 
    = Ret (set_file (fun _ => None) 0 (ascii "1" ++ [10] ++ ascii "2" ++ [10] ++ ascii "3")) /\
(match calculate_statistics [ascii "1 1" ++ [10] ++ ascii "4 3" ++ [10]; ascii "1 2" ++ [10]] with
   | Ret rows => map (fun r => (fst r, map B2SF (snd r))) rows | _ => [] end
   = [(1%Z, [SpecFloat.S754_zero false; SpecFloat.S754_finite false (2 ^ 52) (-52)]); (4%Z, [SpecFloat.S754_finite false (2 ^ 52) (-54)])]) /\
  calculate_statistics [ascii "0 1" ++ [10]] = Panic.
Proof.
  split; [lazy; reflexivity|]. split; [apply cards_overflow; lia|].
  split; [lazy; reflexivity|]. split; lazy; reflexivity.
Qed.
