(** * Where the experiments of exp.py find no error at all *)
From Coq Require Import String.
From Coq Require Import NArith ZArith Reals List Bool Permutation Lia Lra.
From Flocq Require Import Core BinarySingleNaN.
From Verif Require Import ModelRust ModelF64 ModelEnv ModelHistory ModelFiles ModelArgs ModelExp ModelCommand ModelStats Spec SpecBuild SpecEval SpecRust SpecFiles SpecExp
  SpecCommand SpecStats F64Facts TextFacts PathFacts FilesFacts FilesMain ModelTests Witness FilesExample CommandFacts PlusInv SparseFacts ClaimFloat RiskFacts ModelEval EvalFacts ExpMain StatsFacts CommandPipeline CommandFirst.
Import ListNotations.
Local Open Scope N_scope.

Lemma few_shown : forall e p l m c k, build_std e -> accurate e -> 4 <= p <= 18 -> 2 * p < usize_bits e -> Forall (fun x => x < 2 ^ 64) l ->
  4 * N.of_nat (length l) + 16 <= sparse_limit p -> NoDup (map prefix25 l) ->
  N.of_nat (length l) <= 5791 /\ m = N.of_nat (length l) \/ N.of_nat (length l) = 5792 /\ m = 5793 ->
  count_plus e (fun l => l) (inserts p l) = Ret c -> shown c k -> k = m.
Proof.
  intros e p l m c k Hb Ha Hp Hw D Hs ND HM C S.
  destruct (inserts_ok p l _ ltac:(lia) Hw D) as (V & W & P & HH).
  assert (O : is_order (fun l : list N => l)) by (intros k'; apply Permutation_refl).
  destruct (code_list_exists p l) as (L & IL).
  assert (N1 : N.of_nat (length l) = N.of_nat (length L)).
  { assert (HS : has_size (fun q => exists h, In h l /\ prefix25 h = q) (N.of_nat (length l))).
    { exists (map prefix25 l). split; [exact ND|]. split; [|now rewrite map_length]. intros q. rewrite in_map_iff. split; intros (h & A & B); exists h; tauto. }
    destruct (codes_prefixes p l L _ ltac:(lia) IL HS) as (_ & Q). apply Q.
    intros x y Ix Iy EQ. right. f_equal. clear - ND Ix Iy EQ. induction l as [|a l IH]; [destruct Ix|].
    cbn [map] in ND. apply NoDup_cons_iff in ND. destruct ND as [N0 ND].
    destruct Ix as [<-|Ix], Iy as [<-|Iy]; [reflexivity| | |now apply IH].
    - elim N0. rewrite EQ. now apply in_map.
    - elim N0. rewrite <- EQ. now apply in_map. }
  assert (GL : gap_len 0 L <= sparse_limit p) by (pose proof (ClaimDist.codes_bytes p l L D IL); lia).
  assert (T : is_finite c = true /\ Ztrunc (B2R c) = Z.of_N m).
  { destruct HM as [(M1 & ->)|(M1 & ->)].
    - destruct (small_exact N e (fun l => l) (inserts p l) L Hb Ha V W O) as (c' & C' & F & T); [now rewrite P, HH|now rewrite P|lia|].
      rewrite C in C'. injection C' as <-. split; [exact F|]. rewrite T. lia.
    - destruct (small_sharp N e (fun l => l) (inserts p l) L Hb Ha V W O) as (c' & C' & F & T); [now rewrite P, HH|now rewrite P|lia|].
      rewrite C in C'. injection C' as <-. split; [exact F|exact T]. }
  destruct T as (F & T). destruct S as (_ & S & _). specialize (S F). rewrite T in S.
  change (2 ^ 64)%Z with 18446744073709551616%Z in S. lia.
Qed.

Lemma few_line : forall e p hs out j m, build_std e -> accurate e -> 4 <= p <= 18 -> 2 * p < usize_bits e -> Forall (fun x => x < 2 ^ 64) hs ->
  plus_lines e p hs out -> (j < length hs)%nat -> 4 * N.of_nat (j + 1) + 16 <= sparse_limit p -> NoDup (map prefix25 (firstn (j + 1) hs)) ->
  N.of_nat (j + 1) <= 5791 /\ m = N.of_nat (j + 1) \/ N.of_nat (j + 1) = 5792 /\ m = 5793 -> nth_error out j = Some (N.of_nat (j + 1), m).
Proof.
  intros e p hs out j m Hb Ha Hp Hw Hd (_ & H) Hj Hs ND HM.
  set (l := firstn (j + 1) hs) in *.
  assert (LL : length l = (j + 1)%nat) by (unfold l; apply firstn_length_le; lia).
  assert (D : Forall (fun x => x < 2 ^ 64) l) by (apply Forall_forall; intros x I; rewrite Forall_forall in Hd; apply Hd; rewrite <- (firstn_skipn (j + 1) hs); apply in_or_app; now left).
  destruct (inserts_ok p l _ ltac:(lia) Hw D) as (V & W & P & HH).
  assert (O : is_order (fun l : list N => l)) by (intros k; apply Permutation_refl).
  destruct (H j N (fun l => l) (inserts p l) Hj V W O P) as (c & k & C & S & E).
  { intros x. rewrite HH. reflexivity. }
  rewrite E. do 2 f_equal. apply (few_shown e p l m c k); rewrite ?LL; assumption.
Qed.

Lemma card_line : forall e p draws cards out j z k, build_std e -> accurate e -> 4 <= p <= 18 -> 2 * p < usize_bits e -> (forall i, draws i < 2 ^ 64) ->
  plus_card_lines e p draws cards out -> nth_error out j = Some (z, k) -> 4 * z + 16 <= sparse_limit p -> z <= 5791 ->
  NoDup (map prefix25 (first_draws draws z)) -> k = z.
Proof.
  intros e p draws cards out j z k Hb Ha Hp Hw Hd (L & H) E Hs H5 ND.
  assert (Hj : (j < length cards)%nat) by (rewrite <- L; apply nth_error_Some; congruence).
  specialize (H j N (fun l => l)). cbv zeta in H. set (n := largest (firstn (j + 1) cards)) in *.
  assert (D : Forall (fun x => x < 2 ^ 64) (first_draws draws n)) by (apply first_draws_range; auto).
  destruct (inserts_ok p (first_draws draws n) _ ltac:(lia) Hw D) as (V & W & P & HH).
  assert (O : is_order (fun l : list N => l)) by (intros l; apply Permutation_refl).
  destruct (H (inserts p (first_draws draws n)) Hj V W O P) as (c & k' & C & S & E').
  { intros x. rewrite HH. reflexivity. }
  rewrite E in E'. injection E' as <- <-.
  assert (LF : length (first_draws draws z) = N.to_nat z) by (unfold first_draws; now rewrite map_length, seq_length).
  apply (few_shown e p (first_draws draws z) z c k); rewrite ?LF, ?N2Nat.id; auto.
Qed.

Lemma exact_line : forall e p hs out j, build_std e -> accurate e -> 4 <= p <= 18 -> 2 * p < usize_bits e -> Forall (fun x => x < 2 ^ 64) hs ->
  plus_lines e p hs out -> (j < length hs)%nat -> 4 * N.of_nat (j + 1) + 16 <= sparse_limit p -> N.of_nat (j + 1) <= 5791 -> NoDup (map prefix25 (firstn (j + 1) hs)) ->
  nth_error out j = Some (N.of_nat (j + 1), N.of_nat (j + 1)).
Proof. intros. eapply few_line; eauto. Qed.

Lemma sharp_line : forall e p hs out, build_std e -> accurate e -> 15 <= p <= 18 -> 2 * p < usize_bits e -> Forall (fun x => x < 2 ^ 64) hs ->
  plus_lines e p hs out -> 5792 <= N.of_nat (length hs) -> NoDup (map prefix25 (firstn (N.to_nat 5792) hs)) ->
  nth_error out (N.to_nat 5791) = Some (5792, 5793).
Proof.
  intros e p hs out B A P W D L N0 ND. assert (E : (N.to_nat 5791 + 1)%nat = N.to_nat 5792) by lia.
  rewrite (few_line e p hs out (N.to_nat 5791) 5793 B A ltac:(lia) W D L); rewrite ?E, ?N2Nat.id; try reflexivity; try lia; auto.
  apply N.le_trans with (sparse_limit 15); [vm_compute; discriminate|]. unfold sparse_limit. apply N.div_le_mono; [discriminate|]. apply N.mul_le_mono_l, N.pow_le_mono_r; [discriminate|lia].
Qed.

Local Open Scope R_scope.
Definition none (x : f64) : Prop := is_finite x = true /\ B2R x = 0.

Lemma zero_error : forall c x, (1 <= c <= 2 ^ 53)%N -> relative_error_of c c x -> none x.
Proof.
  intros c x C (F & V). split; [exact F|]. rewrite V. change rounded with rnd.
  destruct (of_N_exact c ltac:(lia)) as [_ E]. rewrite <- E, rnd_id, Rminus_diag_eq, rnd_0, Rabs_R0 by reflexivity. unfold Rdiv. now rewrite Rmult_0_l, rnd_0.
Qed.

Lemma none_op : forall x y, none x -> none y -> none (fadd x y) /\ none (fsub x y) /\ none (fmul x y).
Proof.
  intros x y (Fx & Vx) (Fy & Vy). change B2R with val in Vx, Vy.
  assert (Z0 : Rabs 0 <= bpow radix2 1023) by (rewrite Rabs_R0; apply bpow_ge_0).
  destruct (fadd_is x y Fx Fy) as [A1 A2]. { rewrite Vx, Vy, Rplus_0_l. exact Z0. }
  destruct (fsub_is x y Fx Fy) as [B1 B2]. { rewrite Vx, Vy, Rminus_0_r. exact Z0. }
  destruct (fmul_is x y Fx Fy) as [C1 C2]. { rewrite Vx, Vy, Rmult_0_l. exact Z0. }
  rewrite Vx, Vy in A2, B2, C2. rewrite Rplus_0_l, rnd_0 in A2. rewrite Rminus_0_r, rnd_0 in B2. rewrite Rmult_0_l, rnd_0 in C2. repeat split; assumption.
Qed.

Lemma added_none : forall l s, added l s -> List.Forall none l -> none s.
Proof.
  intros l s A. induction A as [sign|x|l1 l2 l x y A1 IH1 A2 IH2 P]; intros F.
  - split; reflexivity.
  - now apply Forall_inv in F.
  - apply none_op; [apply IH1|apply IH2]; apply Forall_forall; intros z I; rewrite Forall_forall in F; apply F; (eapply Permutation_in; [exact P|]); apply in_or_app; tauto.
Qed.

Lemma mean_none : forall l m, l <> [] -> INR (length l) <= 2 ^ 50 -> List.Forall none l -> np_mean l m -> none m.
Proof.
  intros l m N0 L F (s & A & ->). destruct (added_none l s A F) as (Fs & Vs). destruct (count_is (length l) L) as [Fn Vn].
  assert (P : 0 < INR (length l)) by (apply lt_0_INR; destruct l; [now elim N0|cbn; lia]).
  change B2R with val in Vs. destruct (fdiv_is s _ Fs Fn) as [Fd Vd]; [rewrite Vn; lra| |].
  - rewrite Vs. unfold Rdiv. rewrite Rmult_0_l, Rabs_R0. apply bpow_ge_0.
  - split; [exact Fd|]. rewrite Vs in Vd. unfold Rdiv in Vd. rewrite Rmult_0_l, rnd_0 in Vd. exact Vd.
Qed.

Lemma stats_none : forall l m md s, l <> [] -> INR (length l) <= 2 ^ 50 -> List.Forall none l -> np_mean l m -> np_median l md -> np_std l s ->
  none m /\ none md /\ none s.
Proof.
  intros l m md s N0 L F Hm (part & P & Hd) (m' & v & Hm' & Hv & ->).
  assert (N1 : (0 < length l)%nat) by (destruct l; [now elim N0|cbn; lia]).
  assert (SUB : forall a b k, (0 < length (firstn a (skipn b part)))%nat -> np_mean (firstn a (skipn b part)) k -> none k).
  { intros a b k Q K. apply (mean_none (firstn a (skipn b part))).
    - intros Z. rewrite Z in Q. cbn in Q. lia.
    - eapply Rle_trans; [|exact L]. apply le_INR. rewrite (Permutation_length P). rewrite firstn_length, skipn_length. lia.
    - apply Forall_forall. intros x I. rewrite Forall_forall in F. apply F. eapply Permutation_in; [apply Permutation_sym; exact P|].
      rewrite <- (firstn_skipn b part). apply in_or_app. right. rewrite <- (firstn_skipn a (skipn b part)). apply in_or_app. now left.
    - exact K. }
  pose proof (Permutation_length P) as LP. assert (DV : (Nat.div2 (length l) < length l)%nat) by (apply Nat.lt_div2; lia).
  split; [now apply (mean_none l)|]. split.
  - cbv zeta in Hd. destruct (Nat.odd (length l)).
    + destruct Hd as (_ & K). eapply SUB; [|exact K]. rewrite firstn_length, skipn_length. lia.
    + destruct Hd as (_ & _ & K). eapply SUB; [|exact K]. rewrite firstn_length, skipn_length. lia.
  - pose proof (mean_none l m' N0 L F Hm') as M'.
    assert (V : none v).
    { eapply mean_none; [| | |exact Hv].
      - intros Z. apply map_eq_nil in Z. contradiction.
      - now rewrite map_length.
      - apply Forall_map. eapply Forall_impl; [|exact F]. intros x Hx. destruct (none_op x m' Hx M') as (_ & D & _). now apply none_op. }
    destruct V as (Fv & Vv). change B2R with val in Vv. destruct (sqrt_is v Fv) as [A B]; [rewrite Vv; lra|]. split; [exact A|]. rewrite Vv, sqrt_0, rnd_0 in B. exact B.
Qed.

Local Open Scope N_scope.
Lemma exact_experiment : forall glob e resolve draws ords, 0 < usize_bits e ->
  forall jobs jobs' c n ks p dir hnames output names paths d,
  build_std e -> accurate e -> (forall k i, is_order (ords k i)) -> 2 * p < usize_bits e -> 4 <= p <= 18 -> (forall k i, draws k i < 2 ^ 64) ->
  jobs < 2 ^ usize_bits e -> jobs' < 2 ^ usize_bits e -> c <= 2 ^ 53 -> c < 2 ^ usize_bits e -> 0 < n < 2 ^ usize_bits e -> n <= 2 ^ 50 ->
  dir <> [] -> (forall t, dir <> 45 :: t) -> (forall dir', dir <> dir' ++ [47]) -> ~ hyphen output ->
  Permutation (first_draws (fun r => r) n) ks -> Forall2 (hashes_name (ascii "64")) ks hnames ->
  let files := map (fun name => dir ++ ascii "/" ++ name) hnames in
  separate resolve files -> glob (dir ++ ascii "/*.dat") = files ->
  Forall2 (estimates_name p) hnames names -> Forall2 (in_directory output) names paths -> separate resolve paths ->
  (forall f, In f files -> ~ In (resolve f) (map resolve paths)) ->
  let prepare := exp_prepare e resolve draws ords (PrepareArgs (Z.of_N jobs) (ascii "64") (Z.of_N c) (Z.of_N n) dir) in
  let run := exp_run glob e resolve draws ords (ExpRunArgs (Z.of_N jobs') (ascii "hllp") (ascii "hashes") (Z.of_N p) (Some dir) None None output) in
  forall d1 d2, prepare d (Ret d1) -> run d1 (Ret d2) ->
    exists contents rows, Forall2 (has_file resolve d2) paths contents /\
      calculate_statistics contents = Ret rows /\ map fst rows = map Z.of_nat (seq 1 (N.to_nat c)) /\
      forall j z errs, nth_error rows j = Some (z, errs) -> 4 * N.of_nat (j + 1) + 16 <= sparse_limit p -> N.of_nat (j + 1) <= 5791 ->
        (forall k, k < n -> NoDup (map prefix25 (first_draws (draws k) (N.of_nat (j + 1))))) ->
        length errs = N.to_nat n /\ Forall (fun x => is_finite x = true /\ B2R x = 0%R) errs /\
        forall m md s, np_mean errs m -> np_median errs md -> np_std errs s -> B2R m = 0%R /\ B2R md = 0%R /\ B2R s = 0%R.
Proof.
  intros glob e resolve draws ords U jobs jobs' c n ks p dir hnames output names paths d B AC O W P D J J' C53 CU Nn N50 D0 D1 D2 HO PK HN files SF GL EN PN SP AP prepare run d1 d2 H1 H2.
  destruct (first_plus glob e resolve draws ords U jobs jobs' c n ks p dir hnames output names paths d B O W ltac:(lia) D J J' C53 CU Nn D0 D1 D2 HO PK HN SF GL EN PN SP AP) as (_ & A).
  destruct (A _ H1) as (d1' & E1 & A1). injection E1 as <-. destruct (A1 _ H2) as (d2' & E2 & _ & outs & contents & rows & G1 & G2 & _ & G4 & G5 & G6). injection E2 as <-.
  exists contents, rows. split; [exact G2|]. split; [exact G4|]. split; [exact G5|]. intros j z errs Hr HSL H57 HND. specialize (G6 j z errs Hr).
  assert (Jc : (j < N.to_nat c)%nat).
  { assert (Q : (j < length rows)%nat) by (apply nth_error_Some; congruence). rewrite <- (map_length fst rows), G5, map_length, seq_length in Q. exact Q. }
  assert (Ez : Z.to_N z = N.of_nat (j + 1)).
  { pose proof (map_nth_error fst j rows Hr) as Q. cbn [fst] in Q. rewrite G5, nth_seq_Z in Q by exact Jc. injection Q as <-. lia. }
  rewrite Ez in G6.
  assert (KN : forall k, In k ks -> k < n).
  { intros k I. apply (Permutation_in _ (Permutation_sym PK)) in I. unfold first_draws in I. apply in_map_iff in I. destruct I as (i & <- & I). apply in_seq in I. lia. }
  assert (LE : length errs = N.to_nat n).
  { rewrite <- (same_length _ _ _ _ _ G6), <- (same_length _ _ _ _ _ G1), <- (Permutation_length PK). unfold first_draws. now rewrite map_length, seq_length. }
  assert (FE : Forall none errs).
  { clear - G1 G6 B AC P W D Jc HSL H57 HND KN. revert errs G6. induction G1 as [|k out ks outs Hl G1 IH]; intros errs G6; inversion G6 as [|? x ? errs' (kk & Ek & Er) G6']; subst; constructor.
    - assert (L0 : length (first_draws (draws k) c) = N.to_nat c) by (unfold first_draws; now rewrite map_length, seq_length).
      assert (FN : firstn (j + 1) (first_draws (draws k) c) = first_draws (draws k) (N.of_nat (j + 1))).
      { unfold first_draws. rewrite firstn_map. f_equal. rewrite Nat2N.id. clear - Jc. replace (N.to_nat c) with ((j + 1) + (N.to_nat c - (j + 1)))%nat by lia.
        rewrite seq_app. rewrite firstn_app, seq_length, Nat.sub_diag. cbn [firstn]. rewrite app_nil_r. apply firstn_all2. rewrite seq_length. lia. }
      assert (X : nth_error out j = Some (N.of_nat (j + 1), N.of_nat (j + 1))).
      { apply (exact_line e p (first_draws (draws k) c)); auto; try lia.
        - apply first_draws_range. intros; apply D.
        - rewrite FN. apply HND, KN. now left. }
      rewrite X in Ek. injection Ek as <-. apply (zero_error (N.of_nat (j + 1))); [|exact Er]. change (2 ^ 53) with 9007199254740992. lia.
    - apply IH; [|exact G6']. intros k' I. apply KN. now right. }
  split; [exact LE|]. split; [exact FE|]. intros m md s Hm Hd Hs.
  destruct (stats_none errs m md s) as ((_ & Q1) & (_ & Q2) & (_ & Q3)); auto.
  - intros ->. cbn in LE. lia.
  - rewrite LE. rewrite INR_IZR_INZ, N_nat_Z. replace (2 ^ 50)%R with (IZR (2 ^ 50)) by (rewrite pow_bpow; reflexivity). apply IZR_le. change (2 ^ 50)%Z with (Z.of_N (2 ^ 50)). lia.
Qed.

(** Two runs of three hashes at precision 15: the third hash repeats the first, so only the first two rows qualify. *)
Lemma exact_example :
  let place s := Some (number s) in
  let prepare := exp_prepare test_env place example_draws (fun _ _ => keep) (PrepareArgs 2 (ascii "64") 3 2 (ascii "h")) in
  let run := exp_run listed test_env place example_draws (fun _ _ => keep) (ExpRunArgs 1 (ascii "hllp") (ascii "hashes") 15 (Some (ascii "h")) None None (ascii "o")) in
  let paths := [ascii "o/est-p15-hashes-s64-r1.dat"; ascii "o/est-p15-hashes-s64-r0.dat"] in
  exists d1 d2 contents rows errs, prepare (fun _ => None) (Ret d1) /\ run d1 (Ret d2) /\ Forall2 (has_file place d2) paths contents /\
    calculate_statistics contents = Ret rows /\ nth_error rows 1 = Some (2%Z, errs) /\ length errs = 2%nat /\ Forall (fun x => is_finite x = true /\ B2R x = 0%R) errs.
Proof.
  intros place prepare run paths.
  assert (NN : forall k, numeral k (display_uint k)) by apply display_numeral.
  assert (DR : forall k i, example_draws k i < 2 ^ 64) by (intros k i; unfold example_draws; destruct (N.odd (k + i)); reflexivity).
  assert (OR : forall k i : N, is_order ((fun _ _ => keep) k i)) by (intros _ _ l; apply Permutation_refl).
  assert (DI : forall dir', ascii "h" <> dir' ++ [47]) by (intros dir' H; destruct dir' as [|a [|b dir']]; discriminate H).
  assert (HO : ~ hyphen (ascii "o")) by (intros (x & t & H); discriminate H).
  assert (HN : Forall2 (hashes_name (ascii "64")) [1; 0] [ascii "hashes-s64-r1.dat"; ascii "hashes-s64-r0.dat"]).
  { repeat apply Forall2_cons; [| |apply Forall2_nil]; [exists (ascii "1")|exists (ascii "0")]; (split; [|reflexivity]); [exact (NN 1)|exact (NN 0)]. }
  assert (SF : separate place [ascii "h/hashes-s64-r1.dat"; ascii "h/hashes-s64-r0.dat"]).
  { split; [|cbn; intros [X|[X|[]]]; discriminate X]. repeat constructor; [|intros []]. intros [X|[]]. apply own_inj in X. discriminate X. }
  assert (EN : Forall2 (estimates_name 15) [ascii "hashes-s64-r1.dat"; ascii "hashes-s64-r0.dat"] [ascii "est-p15-hashes-s64-r1.dat"; ascii "est-p15-hashes-s64-r0.dat"]).
  { repeat apply Forall2_cons; [| |apply Forall2_nil]; exists (ascii "15"); (split; [exact (NN 15)|reflexivity]). }
  assert (PN : Forall2 (in_directory (ascii "o")) [ascii "est-p15-hashes-s64-r1.dat"; ascii "est-p15-hashes-s64-r0.dat"] paths).
  { repeat apply Forall2_cons; [| |apply Forall2_nil]; now apply join_spec. }
  assert (SP : separate place paths).
  { split; [|cbn; intros [X|[X|[]]]; discriminate X]. repeat constructor; [|intros []]. intros [X|[]]. apply own_inj in X. discriminate X. }
  assert (AP : forall f, In f [ascii "h/hashes-s64-r1.dat"; ascii "h/hashes-s64-r0.dat"] -> ~ In (place f) (map place paths)).
  { intros f [<-|[<-|[]]] [X|[X|[]]]; apply own_inj in X; discriminate X. }
  destruct (first_plus listed test_env place example_draws (fun _ _ => keep) eq_refl 2 1 3 2 [1; 0] 15 (ascii "h")
    [ascii "hashes-s64-r1.dat"; ascii "hashes-s64-r0.dat"] (ascii "o") [ascii "est-p15-hashes-s64-r1.dat"; ascii "est-p15-hashes-s64-r0.dat"] paths (fun _ => None)
    test_build OR eq_refl ltac:(lia) DR eq_refl eq_refl ltac:(discriminate) eq_refl ltac:(split; reflexivity) ltac:(discriminate) ltac:(discriminate) DI HO (perm_swap _ _ _) HN SF eq_refl EN PN SP AP)
    as ((d1 & r & P & R) & A).
  destruct (A _ P) as (d & E & B). injection E as <-. destruct (B r R) as (d2 & -> & _).
  destruct (exact_experiment listed test_env place example_draws (fun _ _ => keep) eq_refl 2 1 3 2 [1; 0] 15 (ascii "h")
    [ascii "hashes-s64-r1.dat"; ascii "hashes-s64-r0.dat"] (ascii "o") [ascii "est-p15-hashes-s64-r1.dat"; ascii "est-p15-hashes-s64-r0.dat"] paths (fun _ => None)
    test_build (fun _ => model_ln_accurate _) OR eq_refl ltac:(lia) DR eq_refl eq_refl ltac:(discriminate) eq_refl ltac:(split; reflexivity) ltac:(discriminate) ltac:(discriminate) ltac:(discriminate) DI HO (perm_swap _ _ _) HN SF eq_refl EN PN SP AP d1 d2 P R)
    as (contents & rows & F & S & M & V).
  destruct (nth_error rows 1) as [[z errs]|] eqn:E.
  - assert (Q : z = 2%Z) by (pose proof (map_nth_error fst 1 rows E) as Q; rewrite M in Q; change (Some 2%Z = Some z) in Q; congruence). subst z.
    destruct (V 1%nat 2%Z errs E) as (L & Z0 & _); [vm_compute; discriminate|discriminate| |].
    + intros k Hk. assert (KK : k = 0 \/ k = 1) by lia. destruct KK as [-> | ->]; vm_compute; (constructor; [intros [X|[]]; discriminate X|constructor; [intros []|constructor]]).
    + exists d1, d2, contents, rows, errs. repeat split; assumption.
  - apply nth_error_None in E. rewrite <- (map_length fst rows), M in E. change (3 <= 1)%nat in E. lia.
Qed.

Lemma NoDup_left : forall (A : Type) (l k : list A), NoDup (l ++ k) -> NoDup l.
Proof. intros A l k. induction l as [|a l IH]; intros H; [constructor|]. inversion H as [|? ? Q R]; subst. constructor; [intros I; apply Q, in_or_app; now left|now apply IH]. Qed.

(** The hashes 0, 2^39, 2 * 2^39, …. *)
Lemma sharp_example : let hs := map (fun i => N.of_nat i * 2 ^ 39) (seq 0 (N.to_nat 5792)) in
  exists out, eval_hashes_plus test_env (fun _ => keep) 15 hs = Ret out /\
    nth_error out (N.to_nat 5790) = Some (5791, 5791) /\ nth_error out (N.to_nat 5791) = Some (5792, 5793).
Proof.
  intros hs.
  assert (D : Forall (fun x => x < 2 ^ 64) hs).
  { apply Forall_forall. intros x I. apply in_map_iff in I. destruct I as (i & <- & I). apply in_seq in I. change (2 ^ 64) with (33554432 * 2 ^ 39).
    apply N.mul_lt_mono_pos_r; [reflexivity|lia]. }
  assert (LH : N.of_nat (length hs) = 5792) by (unfold hs; rewrite map_length, seq_length; lia).
  assert (O : is_order keep) by (intros l; apply Permutation_refl).
  assert (ND : NoDup (map prefix25 hs)).
  { unfold hs. rewrite map_map. apply FinFun.Injective_map_NoDup; [|apply seq_NoDup]. intros x y E. unfold prefix25 in E. rewrite !N.div_mul in E by discriminate. lia. }
  destruct (hashes_plus test_env (fun _ => keep) 15 test_build (fun _ => O) ltac:(lia) eq_refl hs D) as (out & E & PL); [rewrite LH; reflexivity|rewrite LH; reflexivity|].
  exists out. split; [exact E|]. assert (A : accurate test_env) by exact (fun _ => model_ln_accurate _). split.
  - assert (J : (N.to_nat 5790 + 1)%nat = N.to_nat 5791) by lia.
    rewrite (exact_line test_env 15 hs out (N.to_nat 5790) test_build A ltac:(lia) eq_refl D PL); rewrite ?J, ?N2Nat.id; try reflexivity; try lia.
    + vm_compute. discriminate.
    + rewrite <- firstn_map. rewrite <- (firstn_skipn (N.to_nat 5791) (map prefix25 hs)) in ND. exact (NoDup_left _ _ _ ND).
  - apply (sharp_line test_env 15 hs out test_build A ltac:(lia) eq_refl D PL); [lia|]. rewrite firstn_all2 by lia. exact ND.
Qed.

(** ** The second experiment *)
Lemma cards_positive : forall max cards z, (1 <= max)%Z -> (2 * max <= 2 ^ 53)%Z -> generate_cardinalities max = Ret cards -> In z cards -> (1 <= z)%Z.
Proof.
  intros max cards z M1 M2 E I. destruct (cards_range max) as (cards' & E' & _ & _ & F & _).
  { split; [exact M1|]. apply Z.le_trans with (2 ^ 53)%Z; [lia|]. apply Z.pow_le_mono_r; lia. }
  rewrite E in E'. injection E' as <-. rewrite Forall_forall in F. exact (proj1 (F z I)).
Qed.

Lemma exact_cards : forall glob e resolve draws ords, 0 < usize_bits e ->
  forall max jobs p dir file output n names paths d,
  build_std e -> accurate e -> (forall k i, is_order (ords k i)) -> 2 * p < usize_bits e -> jobs < 2 ^ usize_bits e ->
  4 <= p <= 18 -> 0 < n < 2 ^ usize_bits e -> n <= 2 ^ 50 -> (forall k i, draws k i < 2 ^ 64) ->
  (1 <= max)%Z -> (2 * max <= 2 ^ 53)%Z -> (2 * max <= 2 ^ Z.of_N (usize_bits e))%Z ->
  in_directory dir (ascii "cardinalities.dat") file -> resolve file <> None -> ~ hyphen file -> ~ hyphen output ->
  Forall2 (cards_name p (ascii "64")) (first_draws (fun r => r) n) names -> Forall2 (in_directory output) names paths -> separate resolve paths ->
  ~ In (resolve file) (map resolve paths) ->
  let args := ExpRunArgs (Z.of_N jobs) (ascii "hllp") (ascii "cardinalities") (Z.of_N p) None (Some (Z.of_N n)) (Some file) output in
  forall d1 d2, prepare_cardinalities resolve dir max d = Ret d1 -> exp_run glob e resolve draws ords args d1 (Ret d2) ->
    exists contents rows, Forall2 (has_file resolve d2) paths contents /\ calculate_statistics contents = Ret rows /\
      generate_cardinalities max = Ret (map fst rows) /\
      forall j z errs, nth_error rows j = Some (z, errs) -> (4 * z + 16 <= Z.of_N (sparse_limit p))%Z -> (z <= 5791)%Z ->
        (forall k, k < n -> NoDup (map prefix25 (first_draws (draws k) (Z.to_N z)))) ->
        length errs = N.to_nat n /\ Forall (fun x => is_finite x = true /\ B2R x = 0%R) errs /\
        forall m md s, np_mean errs m -> np_median errs md -> np_std errs s -> B2R m = 0%R /\ B2R md = 0%R /\ B2R s = 0%R.
Proof.
  intros glob e resolve draws ords U max jobs p dir file output n names paths d B AC O W J P Nn N50 D M1 M2 M3 FI R0 HF HO CN PN SP AP args d1 d2 H1 H2.
  destruct (exp_pipeline_plus glob e resolve draws ords U max jobs p dir file output n names paths d B O W J P Nn D M1 M2 M3 FI R0 HF HO CN PN SP AP) as (cards & d1' & GC & PC & _ & A).
  rewrite H1 in PC. injection PC as <-. destruct (A _ H2) as (d2' & E2 & _ & outs & contents & rows & G1 & G2 & _ & G4 & G5 & G6). injection E2 as <-.
  exists contents, rows. split; [exact G2|]. split; [exact G4|]. split; [rewrite G5; exact GC|]. intros j z errs Hr HSL H57 HND. specialize (G6 j z errs Hr).
  assert (Z1 : (1 <= z)%Z).
  { pose proof (map_nth_error fst j rows Hr) as Q. cbn [fst] in Q. rewrite G5 in Q. apply nth_error_In in Q. exact (cards_positive max cards z M1 M2 GC Q). }
  assert (KN : forall k, In k (first_draws (fun r => r) n) -> k < n).
  { intros k I. unfold first_draws in I. apply in_map_iff in I. destruct I as (i & <- & I). apply in_seq in I. lia. }
  assert (LE : length errs = N.to_nat n).
  { rewrite <- (same_length _ _ _ _ _ G6), <- (same_length _ _ _ _ _ G1). unfold first_draws. now rewrite map_length, seq_length. }
  assert (FE : Forall none errs).
  { revert KN. clear - G1 G6 B AC P W D HSL H57 HND Z1. revert errs G6. induction G1 as [|k out ks outs Hl G1 IH]; intros errs G6 KN; inversion G6 as [|? x ? errs' (kk & Ek & Er) G6']; subst; constructor.
    - assert (kk = Z.to_N z) as -> by (eapply (card_line e p (draws k)); eauto; [lia|lia|apply HND, KN; now left]).
      apply (zero_error (Z.to_N z)); [|exact Er]. change (2 ^ 53) with 9007199254740992. lia.
    - apply IH; [exact G6'|]. intros k' I. apply KN. now right. }
  split; [exact LE|]. split; [exact FE|]. intros m md s Hm Hd Hs.
  destruct (stats_none errs m md s) as ((_ & Q1) & (_ & Q2) & (_ & Q3)); auto.
  - intros ->. cbn in LE. lia.
  - rewrite LE. rewrite INR_IZR_INZ, N_nat_Z. replace (2 ^ 50)%R with (IZR (2 ^ 50)) by (rewrite pow_bpow; reflexivity). apply IZR_le. change (2 ^ 50)%Z with (Z.of_N (2 ^ 50)). lia.
Qed.

(** Two runs at precision 15 of the cardinalities 1 to 12: the third hash repeats the first. *)
Lemma exact_cards_example :
  let place s := Some (number s) in
  let args := ExpRunArgs 1 (ascii "hllp") (ascii "cardinalities") 15 None (Some 2%Z) (Some (ascii "c/cardinalities.dat")) (ascii "o") in
  let paths := [ascii "o/est-p15-cards-s64-r0.dat"; ascii "o/est-p15-cards-s64-r1.dat"] in
  exists d1 d2 contents rows errs, prepare_cardinalities place (ascii "c") 12 (fun _ => None) = Ret d1 /\
    exp_run listed test_env place example_draws (fun _ _ => keep) args d1 (Ret d2) /\ Forall2 (has_file place d2) paths contents /\
    calculate_statistics contents = Ret rows /\ nth_error rows 1 = Some (2%Z, errs) /\ length errs = 2%nat /\ Forall (fun x => is_finite x = true /\ B2R x = 0%R) errs.
Proof.
  intros place args paths.
  assert (NN : forall k, numeral k (display_uint k)) by apply display_numeral.
  assert (DR : forall k i, example_draws k i < 2 ^ 64) by (intros k i; unfold example_draws; destruct (N.odd (k + i)); reflexivity).
  assert (OR : forall k i : N, is_order ((fun _ _ => keep) k i)) by (intros _ _ l; apply Permutation_refl).
  assert (FI : in_directory (ascii "c") (ascii "cardinalities.dat") (ascii "c/cardinalities.dat")) by now apply join_spec.
  assert (HF : ~ hyphen (ascii "c/cardinalities.dat")) by (intros (x & t & H); discriminate H).
  assert (HO : ~ hyphen (ascii "o")) by (intros (x & t & H); discriminate H).
  assert (CN : Forall2 (cards_name 15 (ascii "64")) (first_draws (fun r => r) 2) [ascii "est-p15-cards-s64-r0.dat"; ascii "est-p15-cards-s64-r1.dat"]).
  { repeat apply Forall2_cons; [| |apply Forall2_nil]; exists (ascii "15"); [exists (ascii "0")|exists (ascii "1")]; (split; [exact (NN 15)|]); (split; [|reflexivity]); [exact (NN 0)|exact (NN 1)]. }
  assert (PN : Forall2 (in_directory (ascii "o")) [ascii "est-p15-cards-s64-r0.dat"; ascii "est-p15-cards-s64-r1.dat"] paths).
  { repeat apply Forall2_cons; [| |apply Forall2_nil]; now apply join_spec. }
  assert (SP : separate place paths).
  { split; [|cbn; intros [X|[X|[]]]; discriminate X]. repeat constructor; [|intros []]. intros [X|[]]. apply own_inj in X. discriminate X. }
  assert (AP : ~ In (place (ascii "c/cardinalities.dat")) (map place paths)).
  { intros [X|[X|[]]]; apply own_inj in X; discriminate X. }
  assert (R0 : place (ascii "c/cardinalities.dat") <> None) by discriminate.
  assert (M1 : (1 <= 12)%Z) by lia. assert (M2 : (2 * 12 <= 2 ^ 53)%Z) by discriminate. assert (M3 : (2 * 12 <= 2 ^ Z.of_N (usize_bits test_env))%Z) by discriminate.
  assert (W : 2 * 15 < usize_bits test_env) by reflexivity. assert (P : 4 <= 15 <= 18) by lia. assert (J : 1 < 2 ^ usize_bits test_env) by reflexivity.
  assert (Nn : 0 < 2 < 2 ^ usize_bits test_env) by (split; reflexivity). assert (N50 : 2 <= 2 ^ 50) by discriminate.
  destruct (exp_pipeline_plus listed test_env place example_draws (fun _ _ => keep) eq_refl 12 1 15 (ascii "c") (ascii "c/cardinalities.dat") (ascii "o") 2
    [ascii "est-p15-cards-s64-r0.dat"; ascii "est-p15-cards-s64-r1.dat"] paths (fun _ => None) test_build OR W J P Nn DR M1 M2 M3 FI R0 HF HO CN PN SP AP)
    as (cards & d1 & GC & PC & (r & R) & A).
  destruct (A r R) as (d2 & -> & _).
  destruct (exact_cards listed test_env place example_draws (fun _ _ => keep) eq_refl 12 1 15 (ascii "c") (ascii "c/cardinalities.dat") (ascii "o") 2
    [ascii "est-p15-cards-s64-r0.dat"; ascii "est-p15-cards-s64-r1.dat"] paths (fun _ => None) test_build (fun _ => model_ln_accurate _) OR W J P Nn N50 DR M1 M2 M3 FI R0 HF HO CN PN SP AP d1 d2 PC R)
    as (contents & rows & F & S & M & V).
  rewrite (proj1 exp_example) in M. injection M as M.
  destruct (nth_error rows 1) as [[z errs]|] eqn:E.
  - assert (Q : z = 2%Z) by (pose proof (map_nth_error fst 1 rows E) as Q; rewrite <- M in Q; change (Some 2%Z = Some z) in Q; congruence). subst z.
    destruct (V 1%nat 2%Z errs E) as (L & Z0 & _); [vm_compute; discriminate|discriminate| |].
    + intros k Hk. assert (KK : k = 0 \/ k = 1) by lia. destruct KK as [-> | ->]; vm_compute; (constructor; [intros [X|[]]; discriminate X|constructor; [intros []|constructor]]).
    + exists d1, d2, contents, rows, errs. repeat split; assumption.
  - apply nth_error_None in E. rewrite <- (map_length fst rows), <- M in E. change (12 <= 1)%nat in E. lia.
Qed.
