(** * The experiments of exp.py, up to what is plotted *)
From Coq Require Import String.
From Coq Require Import NArith ZArith Reals List Bool Permutation Lia Lra.
From Flocq Require Import Core BinarySingleNaN.
From Verif Require Import ModelRust ModelF64 ModelEnv ModelHistory ModelFiles ModelArgs ModelExp ModelCommand ModelStats ModelPlot Spec SpecBuild SpecReal SpecCount SpecEval SpecRust SpecFiles
  SpecExp SpecCommand SpecStats SpecPoints F64Facts TextFacts PathFacts FilesFacts FilesMain ModelTests Witness FilesExample CommandFacts ClaimFloat PlusMono SandwichFacts RiskFacts ExpMain StatsFacts CommandPipeline CommandFirst PlotFacts ExactFacts.
Import ListNotations.
Local Open Scope N_scope.

(** HyperLogLogPF never shows more than 2^40. *)
Lemma pf_shown : forall e (h : hist N) c k, build e -> accurate e -> rejects e -> valid MAX_PF h -> narrow (usize_bits e) h -> count_pf e h = Ret c -> shown c k -> k <= 2 ^ 40.
Proof.
  intros e h c k Hb Ha Hr V W C S. destruct (pf_finite_iff N e h Hb Ha Hr V W) as (c' & C' & F1 & F2). rewrite C in C'. injection C' as <-.
  destruct S as (S1 & S2 & _). destruct (is_finite c) eqn:F.
  - destruct (pf_value_R N e h Hb Ha V W (proj1 F1 eq_refl)) as (c' & C' & _ & _ & B & _). rewrite C in C'. injection C' as <-.
    specialize (S2 eq_refl). assert (T : (Ztrunc (B2R c) <= 2 ^ 40)%Z).
    { rewrite <- (Ztrunc_IZR (2 ^ 40)). apply Ztrunc_le, B. }
    change (2 ^ 40)%Z with 1099511627776%Z in T. change (2 ^ 40) with 1099511627776. lia.
  - rewrite (S1 (F2 eq_refl)). discriminate.
Qed.

Lemma pf_low : forall e p hs out, build e -> accurate e -> rejects e -> 4 <= p <= 16 -> 2 * p < usize_bits e -> Forall (fun x => x < 2 ^ 32) hs -> pf_lines e p hs out ->
  Forall (fun est => snd est <= 2 ^ 40 * fst est) out.
Proof.
  intros e p hs out Hb Ha Hr Hp Hw Hd (L & H). apply Forall_forall. intros est I. apply In_nth_error in I. destruct I as (j & I).
  assert (Hj : (j < length hs)%nat) by (rewrite <- L; apply nth_error_Some; congruence).
  assert (D : Forall (fun x => x < 2 ^ 32) (firstn (j + 1) hs)) by (apply Forall_forall; intros x Ix; rewrite Forall_forall in Hd; apply Hd; rewrite <- (firstn_skipn (j + 1) hs); apply in_or_app; now left).
  assert (D64 : Forall (fun x => x < 2 ^ 64) (firstn (j + 1) hs)).
  { eapply Forall_impl; [|exact D]. cbv beta. intros a Q. change (2 ^ 64) with 18446744073709551616. change (2 ^ 32) with 4294967296 in Q. lia. }
  destruct (inserts_ok p (firstn (j + 1) hs) _ ltac:(lia) Hw D64) as (_ & W & P & HH).
  assert (V : valid MAX_PF (inserts p (firstn (j + 1) hs))).
  { clear - Hp. induction (firstn (j + 1) hs) as [|x l IH]; [exact Hp|]. split; [intros l'; apply Permutation_refl|exact IH]. }
  destruct (H j N (inserts p (firstn (j + 1) hs)) Hj V W P) as (c & k & C & S & E).
  - rewrite HH. rewrite map_ext_in with (g := fun x => x); [rewrite map_id; intros x; reflexivity|].
    intros x Ix. apply N.mod_small. rewrite Forall_forall in D. now apply D.
  - rewrite I in E. injection E as ->. cbn [fst snd].
    assert (K : k <= 2 ^ 40) by exact (pf_shown e _ c k Hb Ha Hr V W C S).
    apply N.le_trans with (2 ^ 40 * 1); [now rewrite N.mul_1_r|]. apply N.mul_le_mono_l. lia.
Qed.

(** Nor does HyperLogLogPlus show 2^40 times too much while there are at most a quarter as many hashes as registers. *)
Lemma plus_shown : forall e p l c k, build_std e -> accurate e -> 4 <= p <= 18 -> 2 * p < usize_bits e -> Forall (fun x => x < 2 ^ 64) l ->
  4 * N.of_nat (length l) <= 2 ^ p -> count_plus e (fun l => l) (inserts p l) = Ret c -> shown c k -> k <= 2 ^ 40 * N.of_nat (length l).
Proof.
  intros e p l c k Hb Ha Hp Hw D H4 C S. destruct (inserts_ok p l _ ltac:(lia) Hw D) as (V & W & P & HH).
  assert (O : is_order (fun l : list N => l)) by (intros k'; apply Permutation_refl).
  destruct (plus_sandwich N e (fun l => l) (inserts p l) l [] Hb Ha V W O) as (c' & C' & F & _ & B).
  - rewrite HH. apply incl_refl.
  - rewrite P. lia.
  - constructor.
  - intros b [].
  - rewrite C in C'. injection C' as <-. rewrite P in B. destruct S as (_ & S & _). specialize (S F).
    assert (T : (Ztrunc (B2R c) <= 2 * Z.of_nat (length l))%Z).
    { rewrite <- (Ztrunc_IZR (2 * Z.of_nat (length l))). apply Ztrunc_le. eapply Rle_trans; [exact B|]. rewrite mult_IZR, <- INR_IZR_INZ.
      assert (M : (4 * INR (length l) <= m_R p)%R).
      { unfold m_R. rewrite INR_IZR_INZ, <- mult_IZR. apply IZR_le. change 2%Z with (Z.of_N 2). rewrite <- N2Z.inj_pow. lia. }
      assert (M0 : (0 < m_R p)%R) by (unfold m_R; apply IZR_lt, Z.pow_pos_nonneg; lia).
      assert (J0 : (0 <= INR (length l))%R) by apply pos_INR.
      assert (Q : (INR (length l) / m_R p <= 1 / 4)%R).
      { apply Rmult_le_reg_r with (m_R p); [lra|]. unfold Rdiv at 1. rewrite Rmult_assoc, Rinv_l by lra. lra. }
      assert (Q0 : (0 <= INR (length l) / m_R p)%R) by (apply Rmult_le_pos; [lra|]; now apply Rlt_le, Rinv_0_lt_compat).
      assert (E28 : (/ IZR (2 ^ 28) <= 1 / 2)%R) by (change (IZR (2 ^ 28)) with 268435456%R; lra).
      assert (E0 : (0 < / IZR (2 ^ 28))%R) by (change (IZR (2 ^ 28)) with 268435456%R; lra).
      rewrite Rmult_assoc, (Rmult_comm 2). apply Rmult_le_compat_l; [lra|]. apply Rle_trans with ((1 + 1 / 4) * (1 + 1 / 2))%R; [|lra].
      apply Rmult_le_compat; lra. }
    change (2 ^ 40) with 1099511627776. lia.
Qed.

Lemma plus_low : forall e p hs out, build_std e -> accurate e -> 4 <= p <= 18 -> 2 * p < usize_bits e -> Forall (fun x => x < 2 ^ 64) hs ->
  4 * N.of_nat (length hs) <= 2 ^ p -> plus_lines e p hs out -> Forall (fun est => snd est <= 2 ^ 40 * fst est) out.
Proof.
  intros e p hs out Hb Ha Hp Hw Hd H4 (L & H). apply Forall_forall. intros est I. apply In_nth_error in I. destruct I as (j & I).
  assert (Hj : (j < length hs)%nat) by (rewrite <- L; apply nth_error_Some; congruence).
  set (l := firstn (j + 1) hs) in *.
  assert (LL : length l = (j + 1)%nat) by (unfold l; apply firstn_length_le; lia).
  assert (D : Forall (fun x => x < 2 ^ 64) l) by (apply Forall_forall; intros x Ix; rewrite Forall_forall in Hd; apply Hd; rewrite <- (firstn_skipn (j + 1) hs); apply in_or_app; now left).
  destruct (inserts_ok p l _ ltac:(lia) Hw D) as (V & W & P & HH).
  assert (O : is_order (fun l : list N => l)) by (intros k; apply Permutation_refl).
  destruct (H j N (fun l => l) (inserts p l) Hj V W O P) as (c & k & C & S & E).
  { intros x. rewrite HH. reflexivity. }
  rewrite I in E. injection E as ->. cbn [fst snd]. rewrite <- LL. apply (plus_shown e p l c k); auto. lia.
Qed.

Lemma plus_card_low : forall e p draws cs out, build_std e -> accurate e -> 4 <= p <= 18 -> 2 * p < usize_bits e -> (forall i, draws i < 2 ^ 64) ->
  Forall (fun z => 4 * z <= 2 ^ p) cs -> plus_card_lines e p draws cs out -> Forall (fun est => snd est <= 2 ^ 40 * fst est) out.
Proof.
  intros e p draws cs out Hb Ha Hp Hw Hd H4 (L & H). apply Forall_forall. intros est I. apply In_nth_error in I. destruct I as (j & I).
  assert (Hj : (j < length cs)%nat) by (rewrite <- L; apply nth_error_Some; congruence).
  specialize (H j N (fun l => l)). cbv zeta in H. set (n := largest (firstn (j + 1) cs)) in *.
  assert (Q : 4 * n <= 2 ^ p).
  { assert (F : Forall (fun z => 4 * z <= 2 ^ p) (firstn (j + 1) cs)) by (apply Forall_forall; intros x Ix; rewrite Forall_forall in H4; apply H4; rewrite <- (firstn_skipn (j + 1) cs); apply in_or_app; now left).
    unfold n. clear - F. induction F as [|x l X F IH]; unfold largest in *; cbn [fold_right]; lia. }
  assert (D : Forall (fun x => x < 2 ^ 64) (first_draws draws n)) by (apply first_draws_range; exact Hd).
  destruct (inserts_ok p (first_draws draws n) _ ltac:(lia) Hw D) as (V & W & P & HH).
  assert (O : is_order (fun l : list N => l)) by (intros k; apply Permutation_refl).
  destruct (H (inserts p (first_draws draws n)) Hj V W O P) as (c & k & C & S & E).
  { intros x. rewrite HH. reflexivity. }
  assert (LF : N.of_nat (length (first_draws draws n)) = n) by (unfold first_draws; rewrite map_length, seq_length; apply N2Nat.id).
  rewrite I in E. injection E as ->. cbn [fst snd]. rewrite <- LF at 1. apply (plus_shown e p (first_draws draws n) c k); auto. now rewrite LF.
Qed.

Lemma list_ext : forall (A : Type) (l k : list A), length l = length k -> (forall j x, nth_error l j = Some x -> nth_error k j = Some x) -> l = k.
Proof.
  intros A l. induction l as [|a l IH]; intros [|b k] L H; try discriminate L; [reflexivity|].
  pose proof (H 0%nat a eq_refl) as E. injection E as ->. f_equal. apply IH; [now injection L|]. intros j x. exact (H (S j) x).
Qed.

Lemma row_all : forall (A : Type) j (files : list (list A)), Forall (fun f => (j < length f)%nat) files -> Forall2 (fun f est => nth_error f j = Some est) files (row files j).
Proof.
  intros A j files F. induction F as [|f files Hf F IH]; [constructor|]. unfold row. cbn [flat_map]. destruct (nth_error f j) as [est|] eqn:E.
  - constructor; assumption.
  - apply nth_error_None in E. lia.
Qed.

Lemma Forall2_trans : forall (A B C : Type) (P : A -> B -> Prop) (Q : B -> C -> Prop) l k m, Forall2 P l k -> Forall2 Q k m -> Forall2 (fun a c => exists b, P a b /\ Q b c) l m.
Proof. intros A B C P Q l k m F. revert m. induction F as [|a b l k H F IH]; intros m G; inversion G; subst; constructor; eauto. Qed.

Lemma Forall2_head : forall (A B : Type) (P : A -> B -> Prop) l b k, Forall2 P l (b :: k) -> exists a, In a l /\ P a b.
Proof. intros A B P l b k F. inversion F as [|a ? l' ? H F']; subst. exists a. split; [now left|exact H]. Qed.

Lemma drawn : forall hll hashes cards (LN : N -> list (N * N) -> Prop) resolve d ks outs paths contents, cards <> [] -> Forall (fun z => 1 <= z <= 2 ^ 53)%Z cards -> ks <> [] -> (INR (length ks) <= 2 ^ 50)%R ->
  (forall k out, In k ks -> LN k out -> length out = length cards /\ (forall j z, nth_error cards j = Some z -> exists m, nth_error out j = Some (Z.to_N z, m) /\ m < 2 ^ 64) /\
     Forall (fun est => snd est <= 2 ^ 40 * fst est) out) ->
  Forall2 LN ks outs -> Forall2 (has_file resolve d) paths contents -> Forall2 estimate_file outs contents ->
  forall paths' contents', Permutation paths paths' -> Forall2 (has_file resolve d) paths' contents' ->
  exists ks' outs', Permutation ks ks' /\ Forall2 LN ks' outs' /\ (exists r, plot hll hashes contents' r) /\
    forall r, plot hll hashes contents' r -> exists g, r = Ret g /\ points cards outs' g.
Proof.
  intros hll hashes cards LN resolve d ks outs paths contents C0 C K0 K50 ALL A B D paths' contents' PP B'.
  assert (T : Forall2 (fun path ko => LN (fst ko) (snd ko) /\ exists content, has_file resolve d path content /\ estimate_file (snd ko) content) paths (combine ks outs)).
  { clear - A B D. revert paths contents B D. induction A as [|k out ks outs H A IH]; intros paths contents B D; inversion D; subst; inversion B; subst; constructor; eauto. }
  assert (MC : map fst (combine ks outs) = ks) by (clear - A; induction A; cbn; congruence).
  destruct (Forall2_perm_l _ _ _ _ _ PP _ T) as (kos & PK & T').
  exists (map fst kos), (map snd kos).
  assert (P1 : Permutation ks (map fst kos)) by (rewrite <- MC at 1; now apply Permutation_map).
  assert (A' : Forall2 LN (map fst kos) (map snd kos)) by (clear - T'; induction T' as [|? ko ? ? (H & _) T' IH]; constructor; assumption).
  assert (D' : Forall2 estimate_file (map snd kos) contents').
  { clear - T' B'. revert contents' B'. induction T' as [|path ko paths' kos (_ & ct & (l & E1 & E2) & H) T' IH]; intros contents' B'; inversion B' as [|? ct' ? cts (l' & E1' & E2') B2]; subst; constructor.
    - rewrite E1 in E1'. injection E1' as <-. rewrite E2 in E2'. injection E2' as <-. exact H.
    - now apply IH. }
  split; [exact P1|]. split; [exact A'|].
  set (outs' := map snd kos) in *.
  assert (LO : length outs' = length ks) by (unfold outs'; rewrite map_length, <- (map_length fst kos); symmetry; now apply Permutation_length).
  assert (AO : forall out, In out outs' -> length out = length cards /\ (forall j z, nth_error cards j = Some z -> exists m, nth_error out j = Some (Z.to_N z, m) /\ m < 2 ^ 64) /\
     Forall (fun est => snd est <= 2 ^ 40 * fst est) out).
  { intros out I. assert (Q : exists k, In k (map fst kos) /\ LN k out).
    { clear - A' I. induction A' as [|k o ks os H A' IH]; [destruct I|]. destruct I as [<-|I]; [exists k; split; [now left|exact H]|]. destruct (IH I) as (k' & I' & H'). exists k'. split; [now right|exact H']. }
    destruct Q as (k & Ik & Hk). apply (ALL k); [|exact Hk]. eapply Permutation_in; [apply Permutation_sym, P1|exact Ik]. }
  assert (CZ : forall j, (j < length cards)%nat -> exists z, nth_error cards j = Some z /\ (1 <= z <= 2 ^ 53)%Z).
  { intros j Hj. destruct (nth_error cards j) as [z|] eqn:E; [|apply nth_error_None in E; lia]. exists z. split; [reflexivity|]. rewrite Forall_forall in C. apply C. eapply nth_error_In, E. }
  destruct (plot_ok hll hashes outs' contents' D') as (R & PL).
  - apply Forall_forall. intros out I. destruct (AO out I) as (L & N1 & _). apply Forall_forall. intros est Ie. apply In_nth_error in Ie. destruct Ie as (j & Ie).
    assert (Hj : (j < length cards)%nat) by (rewrite <- L; apply nth_error_Some; congruence). destruct (CZ j Hj) as (z & Ez & Rz). destruct (N1 j z Ez) as (m & E & M). rewrite Ie in E. injection E as ->.
    cbn [fst snd]. change (2 ^ 53)%Z with (Z.of_N (2 ^ 53)) in Rz. split; [lia|exact M].
  - now rewrite LO.
  - split; [exact R|]. intros r Hr. destruct (PL r Hr) as (_ & G).
    assert (X : exists f, In f outs' /\ f <> []).
    { destruct outs' as [|f fs]; [cbn in LO; destruct ks; [now elim K0|discriminate LO]|]. exists f. split; [now left|]. destruct (AO f (or_introl eq_refl)) as (L & _). intros ->. destruct cards; [now elim C0|discriminate L]. }
    destruct (G X) as (g & -> & _ & (f & If & Lf) & L1 & L2 & L3 & L4 & PT).
    { apply Forall_forall. intros out I. apply (AO out I). }
    assert (LX : length (g_x g) = length cards) by (rewrite <- Lf; apply (AO f If)).
    assert (RA : forall j, (j < length cards)%nat -> Forall2 (fun f est => nth_error f j = Some est) outs' (row outs' j)).
    { intros j Hj. apply row_all, Forall_forall. intros o Io. rewrite (proj1 (AO o Io)). exact Hj. }
    exists g. split; [reflexivity|]. split.
    { apply list_ext; [exact LX|]. intros j z E. assert (Hj : (j < length cards)%nat) by (rewrite <- LX; apply nth_error_Some; congruence).
      destruct (PT j z E) as (c' & k & rest & errs & m & md & s & lo & hi & Rw & Ez & _). pose proof (RA j Hj) as Q. rewrite Rw in Q. destruct (Forall2_head _ _ _ _ _ _ Q) as (o & Io & Eo).
      destruct (CZ j Hj) as (z' & Ez' & Rz). destruct (proj1 (proj2 (AO o Io)) j z' Ez') as (k' & Ek & _). rewrite Eo in Ek. injection Ek as E1 _. rewrite Ez'. f_equal. lia. }
    rewrite L1, L2, L3, L4, LX. repeat (split; [reflexivity|]). intros j zj Ej. assert (Hj : (j < length cards)%nat) by (apply nth_error_Some; congruence).
    destruct (nth_error (g_x g) j) as [z|] eqn:E; [|apply nth_error_None in E; lia].
    destruct (PT j z E) as (c' & k & rest & errs & m & md & s & lo & hi & _ & _ & FE & Q). exists errs, m, md, s, lo, hi. split; [|exact Q].
    pose proof (Forall2_trans _ _ _ _ _ _ _ _ (RA j Hj) FE) as Z0. clear - Z0 AO Ej. revert AO. induction Z0 as [|o x os xs (est & E & Re) Z0 IH]; intros AO; constructor.
    + destruct (proj1 (proj2 (AO o (or_introl eq_refl))) j zj Ej) as (k' & Ek & _). rewrite E in Ek. injection Ek as ->. exists k'. split; [exact E|exact Re].
    + apply IH. intros o' I. apply AO. now right.
Qed.

(** The lines of the first experiment. *)
Lemma one_to_c : forall c, 1 <= c <= 2 ^ 53 -> let cards := map Z.of_nat (seq 1 (N.to_nat c)) in
  cards <> [] /\ Forall (fun z => 1 <= z <= 2 ^ 53)%Z cards /\ length cards = N.to_nat c /\
  forall j z, nth_error cards j = Some z -> (j < N.to_nat c)%nat /\ Z.to_N z = N.of_nat (j + 1).
Proof.
  intros c C cards. assert (L : length cards = N.to_nat c) by (unfold cards; now rewrite map_length, seq_length). split; [intros E; rewrite E in L; cbn in L; lia|]. split.
  - unfold cards. apply Forall_map, Forall_forall. intros i I. apply in_seq in I. change (2 ^ 53)%Z with (Z.of_N (2 ^ 53)). lia.
  - split; [exact L|]. intros j z E. assert (Hj : (j < N.to_nat c)%nat) by (rewrite <- L; apply nth_error_Some; congruence). split; [exact Hj|].
    unfold cards in E. rewrite nth_seq_Z in E by exact Hj. injection E as <-. lia.
Qed.

Lemma plotted_pf : forall glob e resolve draws ords, 0 < usize_bits e ->
  forall jobs jobs' c n ks p dir hnames output names paths d,
  build e -> accurate e -> rejects e -> 2 * p < usize_bits e -> 4 <= p <= 16 -> (forall k i, draws k i < 2 ^ 32) ->
  jobs < 2 ^ usize_bits e -> jobs' < 2 ^ usize_bits e -> 1 <= c <= 2 ^ 53 -> c < 2 ^ usize_bits e -> 0 < n < 2 ^ usize_bits e -> n <= 2 ^ 50 ->
  dir <> [] -> (forall t, dir <> 45 :: t) -> (forall dir', dir <> dir' ++ [47]) -> ~ hyphen output ->
  Permutation (first_draws (fun r => r) n) ks -> Forall2 (hashes_name (ascii "32")) ks hnames ->
  let files := map (fun name => dir ++ ascii "/" ++ name) hnames in
  separate resolve files -> glob (dir ++ ascii "/*.dat") = files ->
  Forall2 (estimates_name p) hnames names -> Forall2 (in_directory output) names paths -> separate resolve paths ->
  (forall f, In f files -> ~ In (resolve f) (map resolve paths)) ->
  let prepare := exp_prepare e resolve draws ords (PrepareArgs (Z.of_N jobs) (ascii "32") (Z.of_N c) (Z.of_N n) dir) in
  let run := exp_run glob e resolve draws ords (ExpRunArgs (Z.of_N jobs') (ascii "hll") (ascii "hashes") (Z.of_N p) (Some dir) None None output) in
  forall d1 d2, prepare d (Ret d1) -> run d1 (Ret d2) ->
  (exists contents, Forall2 (has_file resolve d2) paths contents) /\
  forall found contents, Permutation paths found -> Forall2 (has_file resolve d2) found contents ->
    exists runs outs, Permutation (first_draws (fun r => r) n) runs /\ Forall2 (fun k out => pf_lines e p (first_draws (draws k) c) out) runs outs /\
      (exists r, plot true true contents r) /\ forall r, plot true true contents r -> exists g, r = Ret g /\ points (map Z.of_nat (seq 1 (N.to_nat c))) outs g.
Proof.
  intros glob e resolve draws ords U jobs jobs' c n ks p dir hnames output names paths d B AC RJ W P D J J' C53 CU Nn N50 D0 D1 D2 HO PK HN files SF GL EN PN SP AP prepare run d1 d2 H1 H2.
  destruct (first_pf glob e resolve draws ords U jobs jobs' c n ks p dir hnames output names paths d B W P D J J' ltac:(lia) CU Nn D0 D1 D2 HO PK HN SF GL EN PN SP AP) as (_ & A).
  assert (LK : length ks = N.to_nat n) by (rewrite <- (Permutation_length PK); unfold first_draws; now rewrite map_length, seq_length).
  assert (FD : forall k, length (first_draws (draws k) c) = N.to_nat c) by (intros k; unfold first_draws; now rewrite map_length, seq_length).
  destruct (A _ H1) as (d1' & E1 & A1). injection E1 as <-. destruct (A1 _ H2) as (d2' & E2 & _ & outs & contents & rows & G1 & G2 & G3 & _). injection E2 as <-.
  split; [now exists contents|]. intros found contents' PF HF.
  destruct (one_to_c c C53) as (O1 & O2 & O3 & O4).
  destruct (drawn true true _ (fun k out => pf_lines e p (first_draws (draws k) c) out) resolve d2 ks outs paths contents O1 O2) with (paths' := found) (contents' := contents')
    as (ks' & outs' & Q1 & Q2 & Q3); auto.
  - intros ->. cbn in LK. lia.
  - rewrite LK, INR_IZR_INZ, N_nat_Z. replace (2 ^ 50)%R with (IZR (2 ^ 50)) by (rewrite pow_bpow; reflexivity). apply IZR_le. change (2 ^ 50)%Z with (Z.of_N (2 ^ 50)). lia.
  - intros k out _ Hl. assert (DD : Forall (fun x => x < 2 ^ 32) (first_draws (draws k) c)) by (unfold first_draws; apply Forall_map, Forall_forall; intros; apply D).
    destruct (pf_all e p _ out B P W DD Hl) as (L & G). rewrite FD in L, G. split; [now rewrite O3|]. split; [intros j z Ez; destruct (O4 j z Ez) as (Hj & ->); exact (G j Hj)|]. exact (pf_low e p _ out B AC RJ P W DD Hl).
  - exists ks', outs'. split; [eapply Permutation_trans; [exact PK|exact Q1]|]. split; assumption.
Qed.

Lemma plotted_plus : forall glob e resolve draws ords, 0 < usize_bits e ->
  forall jobs jobs' c n ks p dir hnames output names paths d,
  build_std e -> (forall k i, is_order (ords k i)) -> 2 * p < usize_bits e -> 4 <= p <= 18 -> (forall k i, draws k i < 2 ^ 64) ->
  jobs < 2 ^ usize_bits e -> jobs' < 2 ^ usize_bits e -> 1 <= c <= 2 ^ 53 -> c < 2 ^ usize_bits e -> 0 < n < 2 ^ usize_bits e -> n <= 2 ^ 50 ->
  dir <> [] -> (forall t, dir <> 45 :: t) -> (forall dir', dir <> dir' ++ [47]) -> ~ hyphen output ->
  Permutation (first_draws (fun r => r) n) ks -> Forall2 (hashes_name (ascii "64")) ks hnames ->
  let files := map (fun name => dir ++ ascii "/" ++ name) hnames in
  separate resolve files -> glob (dir ++ ascii "/*.dat") = files ->
  Forall2 (estimates_name p) hnames names -> Forall2 (in_directory output) names paths -> separate resolve paths ->
  (forall f, In f files -> ~ In (resolve f) (map resolve paths)) ->
  (forall k out, k < n -> plus_lines e p (first_draws (draws k) c) out -> Forall (fun est => snd est <= 2 ^ 40 * fst est) out) ->
  let prepare := exp_prepare e resolve draws ords (PrepareArgs (Z.of_N jobs) (ascii "64") (Z.of_N c) (Z.of_N n) dir) in
  let run := exp_run glob e resolve draws ords (ExpRunArgs (Z.of_N jobs') (ascii "hllp") (ascii "hashes") (Z.of_N p) (Some dir) None None output) in
  forall d1 d2, prepare d (Ret d1) -> run d1 (Ret d2) ->
  (exists contents, Forall2 (has_file resolve d2) paths contents) /\
  forall found contents, Permutation paths found -> Forall2 (has_file resolve d2) found contents ->
    exists runs outs, Permutation (first_draws (fun r => r) n) runs /\ Forall2 (fun k out => plus_lines e p (first_draws (draws k) c) out) runs outs /\
      (exists r, plot false true contents r) /\ forall r, plot false true contents r -> exists g, r = Ret g /\ points (map Z.of_nat (seq 1 (N.to_nat c))) outs g.
Proof.
  intros glob e resolve draws ords U jobs jobs' c n ks p dir hnames output names paths d B O W P D J J' C53 CU Nn N50 D0 D1 D2 HO PK HN files SF GL EN PN SP AP LOW prepare run d1 d2 H1 H2.
  destruct (first_plus glob e resolve draws ords U jobs jobs' c n ks p dir hnames output names paths d B O W P D J J' ltac:(lia) CU Nn D0 D1 D2 HO PK HN SF GL EN PN SP AP) as (_ & A).
  assert (LK : length ks = N.to_nat n) by (rewrite <- (Permutation_length PK); unfold first_draws; now rewrite map_length, seq_length).
  assert (FD : forall k, length (first_draws (draws k) c) = N.to_nat c) by (intros k; unfold first_draws; now rewrite map_length, seq_length).
  destruct (A _ H1) as (d1' & E1 & A1). injection E1 as <-. destruct (A1 _ H2) as (d2' & E2 & _ & outs & contents & rows & G1 & G2 & G3 & _). injection E2 as <-.
  split; [now exists contents|]. intros found contents' PF HF.
  destruct (one_to_c c C53) as (O1 & O2 & O3 & O4).
  destruct (drawn false true _ (fun k out => plus_lines e p (first_draws (draws k) c) out) resolve d2 ks outs paths contents O1 O2) with (paths' := found) (contents' := contents')
    as (ks' & outs' & Q1 & Q2 & Q3); auto.
  - intros ->. cbn in LK. lia.
  - rewrite LK, INR_IZR_INZ, N_nat_Z. replace (2 ^ 50)%R with (IZR (2 ^ 50)) by (rewrite pow_bpow; reflexivity). apply IZR_le. change (2 ^ 50)%Z with (Z.of_N (2 ^ 50)). lia.
  - intros k out Ik Hl. assert (DD : Forall (fun x => x < 2 ^ 64) (first_draws (draws k) c)) by (unfold first_draws; apply Forall_map, Forall_forall; intros; apply D).
    destruct (plus_all e p _ out B P W DD Hl) as (L & G). rewrite FD in L, G. split; [now rewrite O3|]. split; [intros j z Ez; destruct (O4 j z Ez) as (Hj & ->); exact (G j Hj)|]. apply (LOW k); [|exact Hl].
    apply (Permutation_in _ (Permutation_sym PK)) in Ik. unfold first_draws in Ik. apply in_map_iff in Ik. destruct Ik as (i & <- & Ik). apply in_seq in Ik. lia.
  - exists ks', outs'. split; [eapply Permutation_trans; [exact PK|exact Q1]|]. split; assumption.
Qed.

(** ** The second experiment *)
Lemma card_bounds : forall max cards, (1 <= max)%Z -> (2 * max <= 2 ^ 53)%Z -> generate_cardinalities max = Ret cards ->
  cards <> [] /\ Forall (fun z => 1 <= z <= 2 ^ 53)%Z cards /\ increasing cards /\ Forall (fun z => 0 <= z)%Z cards.
Proof.
  intros max cards M1 M2 E. destruct (cards_range max) as (cards' & E' & I & (l & C) & R & _).
  { split; [exact M1|]. assert (2 ^ 53 <= 2 ^ 1023)%Z by (apply Z.pow_le_mono_r; lia). lia. }
  rewrite E in E'. injection E' as <-. split; [rewrite C; discriminate|]. split; [|split; [exact I|]].
  - eapply Forall_impl; [|exact R]. intros z (Z1 & Z2). split; [exact Z1|]. apply le_IZR. apply IZR_le in M1, M2. rewrite mult_IZR in M2. lra.
  - eapply Forall_impl; [|exact R]. intros z (Z1 & _). lia.
Qed.

Lemma pf_card_low : forall e p draws cs out, build e -> accurate e -> rejects e -> 4 <= p <= 16 -> 2 * p < usize_bits e -> (forall i, draws i < 2 ^ 32) ->
  pf_card_lines e p draws cs out -> Forall (fun est => snd est <= 2 ^ 40) out.
Proof.
  intros e p draws cs out Hb Ha Hr Hp Hw Hd (L & H). apply Forall_forall. intros est I. apply In_nth_error in I. destruct I as (j & I).
  assert (Hj : (j < length cs)%nat) by (rewrite <- L; apply nth_error_Some; congruence).
  specialize (H j N). cbv zeta in H. set (n := largest (firstn (j + 1) cs)) in *.
  assert (D : Forall (fun x => x < 2 ^ 32) (first_draws draws n)) by (unfold first_draws; apply Forall_map, Forall_forall; intros; apply Hd).
  assert (D64 : Forall (fun x => x < 2 ^ 64) (first_draws draws n)).
  { eapply Forall_impl; [|exact D]. cbv beta. intros a Q. change (2 ^ 64) with 18446744073709551616. change (2 ^ 32) with 4294967296 in Q. lia. }
  destruct (inserts_ok p (first_draws draws n) _ ltac:(lia) Hw D64) as (_ & W & P & HH).
  assert (V : valid MAX_PF (inserts p (first_draws draws n))).
  { clear - Hp. induction (first_draws draws n) as [|x l IH]; [exact Hp|]. split; [intros l'; apply Permutation_refl|exact IH]. }
  destruct (H (inserts p (first_draws draws n)) Hj V W P) as (c & k & C & S & E).
  - rewrite HH. rewrite map_ext_in with (g := fun x => x); [rewrite map_id; intros x; reflexivity|].
    intros x Ix. apply N.mod_small. rewrite Forall_forall in D. now apply D.
  - rewrite I in E. injection E as ->. cbn [snd]. exact (pf_shown e _ c k Hb Ha Hr V W C S).
Qed.

Lemma plotted_cards_pf : forall glob e resolve draws ords, 0 < usize_bits e ->
  forall max jobs p dir file output n names paths d,
  build e -> accurate e -> rejects e -> 2 * p < usize_bits e -> jobs < 2 ^ usize_bits e ->
  4 <= p <= 16 -> 0 < n < 2 ^ usize_bits e -> n <= 2 ^ 50 -> (forall k i, draws k i < 2 ^ 32) ->
  (1 <= max)%Z -> (2 * max <= 2 ^ 53)%Z -> (2 * max <= 2 ^ Z.of_N (usize_bits e))%Z ->
  in_directory dir (ascii "cardinalities.dat") file -> resolve file <> None -> ~ hyphen file -> ~ hyphen output ->
  Forall2 (cards_name p (ascii "32")) (first_draws (fun r => r) n) names -> Forall2 (in_directory output) names paths -> separate resolve paths ->
  ~ In (resolve file) (map resolve paths) ->
  let args := ExpRunArgs (Z.of_N jobs) (ascii "hll") (ascii "cardinalities") (Z.of_N p) None (Some (Z.of_N n)) (Some file) output in
  forall d1 d2, prepare_cardinalities resolve dir max d = Ret d1 -> exp_run glob e resolve draws ords args d1 (Ret d2) ->
  (exists contents, Forall2 (has_file resolve d2) paths contents) /\
  forall found contents, Permutation paths found -> Forall2 (has_file resolve d2) found contents ->
    exists cards runs outs, generate_cardinalities max = Ret cards /\ Permutation (first_draws (fun r => r) n) runs /\
      Forall2 (fun k out => pf_card_lines e p (draws k) (map Z.to_N cards) out) runs outs /\
      (exists r, plot true false contents r) /\ forall r, plot true false contents r -> exists g, r = Ret g /\ points cards outs g.
Proof.
  intros glob e resolve draws ords U max jobs p dir file output n names paths d B AC RJ W J P Nn N50 D M1 M2 M3 FI R0 HF HO CN PN SP AP args d1 d2 H1 H2.
  destruct (exp_pipeline_pf glob e resolve draws ords U max jobs p dir file output n names paths d B W J P Nn D M1 M2 M3 FI R0 HF HO CN PN SP AP) as (cards & d1' & GC & PC & _ & A).
  rewrite H1 in PC. injection PC as <-. destruct (A _ H2) as (d2' & E2 & _ & outs & contents & rows & G1 & G2 & G3 & _). injection E2 as <-.
  assert (LK : length (first_draws (fun r => r) n) = N.to_nat n) by (unfold first_draws; now rewrite map_length, seq_length).
  split; [now exists contents|]. intros found contents' PF HF'. destruct (card_bounds max cards M1 M2 GC) as (O1 & O2 & O3 & O4).
  destruct (drawn true false cards (fun k out => pf_card_lines e p (draws k) (map Z.to_N cards) out) resolve d2 (first_draws (fun r => r) n) outs paths contents O1 O2)
    with (paths' := found) (contents' := contents') as (ks' & outs' & Q1 & Q2 & Q3); auto.
  - intros Q. rewrite Q in LK. cbn in LK. lia.
  - rewrite LK, INR_IZR_INZ, N_nat_Z. replace (2 ^ 50)%R with (IZR (2 ^ 50)) by (rewrite pow_bpow; reflexivity). apply IZR_le. change (2 ^ 50)%Z with (Z.of_N (2 ^ 50)). lia.
  - intros k out _ Hl. destruct (pf_lines_all e p (draws k) (map Z.to_N cards) out B P W (D k) Hl) as (L & G). rewrite map_length in L, G. split; [exact L|].
    assert (G' : forall j z, nth_error cards j = Some z -> exists m, nth_error out j = Some (Z.to_N z, m) /\ m < 2 ^ 64).
    { intros j z Ez. rewrite <- (increasing_largest cards j z O3 O4 Ez). apply G. apply nth_error_Some. congruence. }
    split; [exact G'|]. pose proof (pf_card_low e p (draws k) _ out B AC RJ P W (D k) Hl) as LO. apply Forall_forall. intros est I. rewrite Forall_forall in LO. specialize (LO est I).
    apply In_nth_error in I. destruct I as (j & I). destruct (nth_error cards j) as [z|] eqn:Ez.
    + destruct (G' j z Ez) as (m & E & _). rewrite I in E. injection E as ->. cbn [fst snd] in *. rewrite Forall_forall in O2. specialize (O2 z (nth_error_In _ _ Ez)).
      apply N.le_trans with (2 ^ 40 * 1); [now rewrite N.mul_1_r|]. apply N.mul_le_mono_l. lia.
    + apply nth_error_None in Ez. assert (j < length out)%nat by (apply nth_error_Some; congruence). lia.
  - exists cards, ks', outs'. split; [exact GC|]. split; [exact Q1|]. split; assumption.
Qed.

Lemma plotted_cards_plus : forall glob e resolve draws ords, 0 < usize_bits e ->
  forall max jobs p dir file output n names paths d,
  build_std e -> (forall k i, is_order (ords k i)) -> 2 * p < usize_bits e -> jobs < 2 ^ usize_bits e ->
  4 <= p <= 18 -> 0 < n < 2 ^ usize_bits e -> n <= 2 ^ 50 -> (forall k i, draws k i < 2 ^ 64) ->
  (1 <= max)%Z -> (2 * max <= 2 ^ 53)%Z -> (2 * max <= 2 ^ Z.of_N (usize_bits e))%Z ->
  in_directory dir (ascii "cardinalities.dat") file -> resolve file <> None -> ~ hyphen file -> ~ hyphen output ->
  Forall2 (cards_name p (ascii "64")) (first_draws (fun r => r) n) names -> Forall2 (in_directory output) names paths -> separate resolve paths ->
  ~ In (resolve file) (map resolve paths) ->
  (forall k cards out, k < n -> generate_cardinalities max = Ret cards -> plus_card_lines e p (draws k) (map Z.to_N cards) out -> Forall (fun est => snd est <= 2 ^ 40 * fst est) out) ->
  let args := ExpRunArgs (Z.of_N jobs) (ascii "hllp") (ascii "cardinalities") (Z.of_N p) None (Some (Z.of_N n)) (Some file) output in
  forall d1 d2, prepare_cardinalities resolve dir max d = Ret d1 -> exp_run glob e resolve draws ords args d1 (Ret d2) ->
  (exists contents, Forall2 (has_file resolve d2) paths contents) /\
  forall found contents, Permutation paths found -> Forall2 (has_file resolve d2) found contents ->
    exists cards runs outs, generate_cardinalities max = Ret cards /\ Permutation (first_draws (fun r => r) n) runs /\
      Forall2 (fun k out => plus_card_lines e p (draws k) (map Z.to_N cards) out) runs outs /\
      (exists r, plot false false contents r) /\ forall r, plot false false contents r -> exists g, r = Ret g /\ points cards outs g.
Proof.
  intros glob e resolve draws ords U max jobs p dir file output n names paths d B O W J P Nn N50 D M1 M2 M3 FI R0 HF HO CN PN SP AP LOW args d1 d2 H1 H2.
  destruct (exp_pipeline_plus glob e resolve draws ords U max jobs p dir file output n names paths d B O W J P Nn D M1 M2 M3 FI R0 HF HO CN PN SP AP) as (cards & d1' & GC & PC & _ & A).
  rewrite H1 in PC. injection PC as <-. destruct (A _ H2) as (d2' & E2 & _ & outs & contents & rows & G1 & G2 & G3 & _). injection E2 as <-.
  assert (LK : length (first_draws (fun r => r) n) = N.to_nat n) by (unfold first_draws; now rewrite map_length, seq_length).
  split; [now exists contents|]. intros found contents' PF HF'. destruct (card_bounds max cards M1 M2 GC) as (O1 & O2 & O3 & O4).
  destruct (drawn false false cards (fun k out => plus_card_lines e p (draws k) (map Z.to_N cards) out) resolve d2 (first_draws (fun r => r) n) outs paths contents O1 O2)
    with (paths' := found) (contents' := contents') as (ks' & outs' & Q1 & Q2 & Q3); auto.
  - intros Q. rewrite Q in LK. cbn in LK. lia.
  - rewrite LK, INR_IZR_INZ, N_nat_Z. replace (2 ^ 50)%R with (IZR (2 ^ 50)) by (rewrite pow_bpow; reflexivity). apply IZR_le. change (2 ^ 50)%Z with (Z.of_N (2 ^ 50)). lia.
  - intros k out Ik Hl. destruct (plus_lines_all e p (draws k) (map Z.to_N cards) out B P W (D k) Hl) as (L & G). rewrite map_length in L, G. split; [exact L|]. split.
    + intros j z Ez. rewrite <- (increasing_largest cards j z O3 O4 Ez). apply G. apply nth_error_Some. congruence.
    + apply (LOW k cards); [|exact GC|exact Hl]. unfold first_draws in Ik. apply in_map_iff in Ik. destruct Ik as (i & <- & Ik). apply in_seq in Ik. lia.
  - exists cards, ks', outs'. split; [exact GC|]. split; [exact Q1|]. split; assumption.
Qed.

(** ** Instances: two runs of three hashes, and of two; the files are found in another order than they are written. *)
Lemma test_rejects : rejects test_env.
Proof.
  intros _ x Fx Nx. set (e := {| usize_bits := 64; overflow_checks := true; feat_std := false; feat_const_loop := true; sum_init := nzero; std_ln := model_ln; std_bsearch := bsearch_halving |}).
  destruct (PFExact.ln_neg e x ltac:(discriminate) Fx Nx) as (y & E & H). unfold ModelCommon.ln in E. cbn [feat_std e overflow_checks] in E.
  cbn [std_ln test_env]. unfold model_ln. rewrite E. exact H.
Qed.

Definition small_draws (k i : N) : N := if N.odd (k + i) then 2 ^ 31 + 1 else 1.
Definition listed_32 (pattern : list N) : list (list N) :=
  if eqb_bytes pattern (ascii "h/*.dat") then [ascii "h/hashes-s32-r1.dat"; ascii "h/hashes-s32-r0.dat"] else [].

Lemma plotted_pf_example :
  let place s := Some (number s) in
  let prepare := exp_prepare test_env place small_draws (fun _ _ => keep) (PrepareArgs 2 (ascii "32") 3 2 (ascii "h")) in
  let run := exp_run listed_32 test_env place small_draws (fun _ _ => keep) (ExpRunArgs 1 (ascii "hll") (ascii "hashes") 4 (Some (ascii "h")) None None (ascii "o")) in
  exists d1 d2 contents g, prepare (fun _ => None) (Ret d1) /\ run d1 (Ret d2) /\
    Forall2 (has_file place d2) [ascii "o/est-p4-hashes-s32-r0.dat"; ascii "o/est-p4-hashes-s32-r1.dat"] contents /\
    plot true true contents (Ret g) /\ g_x g = [1; 2; 3]%Z.
Proof.
  intros place prepare run. set (paths := [ascii "o/est-p4-hashes-s32-r1.dat"; ascii "o/est-p4-hashes-s32-r0.dat"]).
  assert (NN : forall k, numeral k (display_uint k)) by apply display_numeral.
  assert (DR : forall k i, small_draws k i < 2 ^ 32) by (intros k i; unfold small_draws; destruct (N.odd (k + i)); reflexivity).
  assert (OR : forall k i : N, is_order ((fun _ _ => keep) k i)) by (intros _ _ l; apply Permutation_refl).
  assert (DI : forall dir', ascii "h" <> dir' ++ [47]) by (intros dir' H; destruct dir' as [|a [|b dir']]; discriminate H).
  assert (HO : ~ hyphen (ascii "o")) by (intros (x & t & H); discriminate H).
  assert (HN : Forall2 (hashes_name (ascii "32")) [1; 0] [ascii "hashes-s32-r1.dat"; ascii "hashes-s32-r0.dat"]).
  { repeat apply Forall2_cons; [| |apply Forall2_nil]; [exists (ascii "1")|exists (ascii "0")]; (split; [|reflexivity]); [exact (NN 1)|exact (NN 0)]. }
  assert (SF : separate place [ascii "h/hashes-s32-r1.dat"; ascii "h/hashes-s32-r0.dat"]).
  { split; [|cbn; intros [X|[X|[]]]; discriminate X]. repeat constructor; [|intros []]. intros [X|[]]. apply own_inj in X. discriminate X. }
  assert (EN : Forall2 (estimates_name 4) [ascii "hashes-s32-r1.dat"; ascii "hashes-s32-r0.dat"] [ascii "est-p4-hashes-s32-r1.dat"; ascii "est-p4-hashes-s32-r0.dat"]).
  { repeat apply Forall2_cons; [| |apply Forall2_nil]; exists (ascii "4"); (split; [exact (NN 4)|reflexivity]). }
  assert (PN : Forall2 (in_directory (ascii "o")) [ascii "est-p4-hashes-s32-r1.dat"; ascii "est-p4-hashes-s32-r0.dat"] paths).
  { repeat apply Forall2_cons; [| |apply Forall2_nil]; now apply join_spec. }
  assert (SP : separate place paths).
  { split; [|cbn; intros [X|[X|[]]]; discriminate X]. repeat constructor; [|intros []]. intros [X|[]]. apply own_inj in X. discriminate X. }
  assert (AP : forall f, In f [ascii "h/hashes-s32-r1.dat"; ascii "h/hashes-s32-r0.dat"] -> ~ In (place f) (map place paths)).
  { intros f [<-|[<-|[]]] [X|[X|[]]]; apply own_inj in X; discriminate X. }
  assert (AC : accurate test_env) by exact (fun _ => model_ln_accurate _).
  destruct (first_pf listed_32 test_env place small_draws (fun _ _ => keep) eq_refl 2 1 3 2 [1; 0] 4 (ascii "h")
    [ascii "hashes-s32-r1.dat"; ascii "hashes-s32-r0.dat"] (ascii "o") [ascii "est-p4-hashes-s32-r1.dat"; ascii "est-p4-hashes-s32-r0.dat"] paths (fun _ => None)
    (proj1 test_build) eq_refl ltac:(lia) DR eq_refl eq_refl ltac:(discriminate) eq_refl ltac:(split; reflexivity) ltac:(discriminate) ltac:(discriminate) DI HO (perm_swap _ _ _) HN SF eq_refl EN PN SP AP)
    as ((d1 & r & P & R) & A).
  destruct (A _ P) as (d & E & B). injection E as <-. destruct (B r R) as (d2 & -> & _).
  destruct (plotted_pf listed_32 test_env place small_draws (fun _ _ => keep) eq_refl 2 1 3 2 [1; 0] 4 (ascii "h")
    [ascii "hashes-s32-r1.dat"; ascii "hashes-s32-r0.dat"] (ascii "o") [ascii "est-p4-hashes-s32-r1.dat"; ascii "est-p4-hashes-s32-r0.dat"] paths (fun _ => None)
    (proj1 test_build) AC test_rejects eq_refl ltac:(lia) DR eq_refl eq_refl ltac:(split; discriminate) eq_refl ltac:(split; reflexivity) ltac:(discriminate) ltac:(discriminate) ltac:(discriminate) DI HO (perm_swap _ _ _) HN SF eq_refl EN PN SP AP d1 d2 P R)
    as ((cs & F) & V).
  destruct (Forall2_perm_l _ _ _ _ _ (perm_swap _ _ []) _ F) as (contents & _ & F').
  destruct (V _ contents (perm_swap _ _ []) F') as (runs & outs & _ & _ & (r & Hr) & G). destruct (G r Hr) as (g & -> & X & _).
  exists d1, d2, contents, g. repeat (split; [assumption|]). exact X.
Qed.

Lemma plotted_plus_example :
  let place s := Some (number s) in
  let prepare := exp_prepare test_env place example_draws (fun _ _ => keep) (PrepareArgs 2 (ascii "64") 2 2 (ascii "h")) in
  let run := exp_run listed test_env place example_draws (fun _ _ => keep) (ExpRunArgs 1 (ascii "hllp") (ascii "hashes") 15 (Some (ascii "h")) None None (ascii "o")) in
  exists d1 d2 contents g, prepare (fun _ => None) (Ret d1) /\ run d1 (Ret d2) /\
    Forall2 (has_file place d2) [ascii "o/est-p15-hashes-s64-r0.dat"; ascii "o/est-p15-hashes-s64-r1.dat"] contents /\
    plot false true contents (Ret g) /\ g_x g = [1; 2]%Z.
Proof.
  intros place prepare run. set (paths := [ascii "o/est-p15-hashes-s64-r1.dat"; ascii "o/est-p15-hashes-s64-r0.dat"]).
  assert (NN : forall k, numeral k (display_uint k)) by apply display_numeral.
  assert (DR : forall k i, example_draws k i < 2 ^ 64) by (intros k i; unfold example_draws; destruct (N.odd (k + i)); reflexivity).
  assert (OR : forall k i : N, is_order ((fun _ _ => keep) k i)) by (intros _ _ l; apply Permutation_refl).
  assert (DI : forall dir', ascii "h" <> dir' ++ [47]) by (intros dir' H; destruct dir' as [|a [|b dir']]; discriminate H).
  assert (HO : ~ hyphen (ascii "o")) by (intros (x & t & H); discriminate H).
  assert (HN : Forall2 (hashes_name (ascii "64")) [1; 0] [ascii "hashes-s64-r1.dat"; ascii "hashes-s64-r0.dat"]).
  { repeat apply Forall2_cons; [| |apply Forall2_nil]; [exists (ascii "1")|exists (ascii "0")]; (split; [|reflexivity]); [exact (NN 1)|exact (NN 0)]. }
  assert (SF : separate place [ascii "h/hashes-s64-r1.dat"; ascii "h/hashes-s64-r0.dat"]).
  { split; [|cbn; intros [X|[X|[]]]; discriminate X]. repeat constructor; [|intros []]. intros [X|[]]. apply own_inj in X. discriminate X. }
  assert (EN : Forall2 (estimates_name 15) [ascii "hashes-s64-r1.dat"; ascii "hashes-s64-r0.dat"] [ascii "est-p15-hashes-s64-r1.dat"; ascii "est-p15-hashes-s64-r0.dat"]).
  { repeat apply Forall2_cons; [| |apply Forall2_nil]; exists (ascii "15"); (split; [exact (NN 15)|reflexivity]). }
  assert (PN : Forall2 (in_directory (ascii "o")) [ascii "est-p15-hashes-s64-r1.dat"; ascii "est-p15-hashes-s64-r0.dat"] paths).
  { repeat apply Forall2_cons; [| |apply Forall2_nil]; now apply join_spec. }
  assert (SP : separate place paths).
  { split; [|cbn; intros [X|[X|[]]]; discriminate X]. repeat constructor; [|intros []]. intros [X|[]]. apply own_inj in X. discriminate X. }
  assert (AP : forall f, In f [ascii "h/hashes-s64-r1.dat"; ascii "h/hashes-s64-r0.dat"] -> ~ In (place f) (map place paths)).
  { intros f [<-|[<-|[]]] [X|[X|[]]]; apply own_inj in X; discriminate X. }
  assert (AC : accurate test_env) by exact (fun _ => model_ln_accurate _).
  assert (LOW : forall k out, k < 2 -> plus_lines test_env 15 (first_draws (example_draws k) 2) out -> Forall (fun est => snd est <= 2 ^ 40 * fst est) out).
  { intros k out K H. assert (DD : Forall (fun x => x < 2 ^ 64) (first_draws (example_draws k) 2)) by (apply first_draws_range; intros; apply DR).
    apply Forall_forall. intros est I. apply In_nth_error in I. destruct I as (j & I). assert (L : (j < 2)%nat) by (change 2%nat with (length (first_draws (example_draws k) 2)); rewrite <- (proj1 H); apply nth_error_Some; congruence).
    rewrite (exact_line test_env 15 _ out j test_build AC ltac:(lia) eq_refl DD H L) in I.
    - injection I as <-. cbn [fst snd]. change (2 ^ 40) with 1099511627776. lia.
    - apply N.le_trans with (4 * 2 + 16); [lia|vm_compute; discriminate].
    - lia.
    - assert (KK : k = 0 \/ k = 1) by lia. assert (JJ : j = 0%nat \/ j = 1%nat) by lia.
      destruct KK as [-> | ->], JJ as [-> | ->]; vm_compute;
        first [solve [constructor; [intros []|constructor]]|constructor; [intros [X|[]]; discriminate X|constructor; [intros []|constructor]]]. }
  destruct (first_plus listed test_env place example_draws (fun _ _ => keep) eq_refl 2 1 2 2 [1; 0] 15 (ascii "h")
    [ascii "hashes-s64-r1.dat"; ascii "hashes-s64-r0.dat"] (ascii "o") [ascii "est-p15-hashes-s64-r1.dat"; ascii "est-p15-hashes-s64-r0.dat"] paths (fun _ => None)
    test_build OR eq_refl ltac:(lia) DR eq_refl eq_refl ltac:(discriminate) eq_refl ltac:(split; reflexivity) ltac:(discriminate) ltac:(discriminate) DI HO (perm_swap _ _ _) HN SF eq_refl EN PN SP AP)
    as ((d1 & r & P & R) & A).
  destruct (A _ P) as (d & E & B). injection E as <-. destruct (B r R) as (d2 & -> & _).
  destruct (plotted_plus listed test_env place example_draws (fun _ _ => keep) eq_refl 2 1 2 2 [1; 0] 15 (ascii "h")
    [ascii "hashes-s64-r1.dat"; ascii "hashes-s64-r0.dat"] (ascii "o") [ascii "est-p15-hashes-s64-r1.dat"; ascii "est-p15-hashes-s64-r0.dat"] paths (fun _ => None)
    test_build OR eq_refl ltac:(lia) DR eq_refl eq_refl ltac:(split; discriminate) eq_refl ltac:(split; reflexivity) ltac:(discriminate) ltac:(discriminate) ltac:(discriminate) DI HO (perm_swap _ _ _) HN SF eq_refl EN PN SP AP LOW d1 d2 P R)
    as ((cs & F) & V).
  destruct (Forall2_perm_l _ _ _ _ _ (perm_swap _ _ []) _ F) as (contents & _ & F').
  destruct (V _ contents (perm_swap _ _ []) F') as (runs & outs & _ & _ & (r & Hr) & G). destruct (G r Hr) as (g & -> & X & _).
  exists d1, d2, contents, g. repeat (split; [assumption|]). exact X.
Qed.

Lemma cards_pf_example :
  let place s := Some (number s) in
  let args := ExpRunArgs 1 (ascii "hll") (ascii "cardinalities") 4 None (Some 2%Z) (Some (ascii "c/cardinalities.dat")) (ascii "o") in
  exists d1 d2 contents g, prepare_cardinalities place (ascii "c") 12 (fun _ => None) = Ret d1 /\
    exp_run listed test_env place small_draws (fun _ _ => keep) args d1 (Ret d2) /\
    Forall2 (has_file place d2) [ascii "o/est-p4-cards-s32-r1.dat"; ascii "o/est-p4-cards-s32-r0.dat"] contents /\
    plot true false contents (Ret g) /\ g_x g = [1; 2; 3; 4; 5; 6; 7; 8; 9; 10; 11; 12]%Z.
Proof.
  intros place args. set (paths := [ascii "o/est-p4-cards-s32-r0.dat"; ascii "o/est-p4-cards-s32-r1.dat"]).
  assert (NN : forall k, numeral k (display_uint k)) by apply display_numeral.
  assert (DR : forall k i, small_draws k i < 2 ^ 32) by (intros k i; unfold small_draws; destruct (N.odd (k + i)); reflexivity).
  assert (OR : forall k i : N, is_order ((fun _ _ => keep) k i)) by (intros _ _ l; apply Permutation_refl).
  assert (FI : in_directory (ascii "c") (ascii "cardinalities.dat") (ascii "c/cardinalities.dat")) by now apply join_spec.
  assert (HF : ~ hyphen (ascii "c/cardinalities.dat")) by (intros (x & t & H); discriminate H).
  assert (HO : ~ hyphen (ascii "o")) by (intros (x & t & H); discriminate H).
  assert (CN : Forall2 (cards_name 4 (ascii "32")) (first_draws (fun r => r) 2) [ascii "est-p4-cards-s32-r0.dat"; ascii "est-p4-cards-s32-r1.dat"]).
  { repeat apply Forall2_cons; [| |apply Forall2_nil]; exists (ascii "4"); [exists (ascii "0")|exists (ascii "1")]; (split; [exact (NN 4)|]); (split; [|reflexivity]); [exact (NN 0)|exact (NN 1)]. }
  assert (PN : Forall2 (in_directory (ascii "o")) [ascii "est-p4-cards-s32-r0.dat"; ascii "est-p4-cards-s32-r1.dat"] paths).
  { repeat apply Forall2_cons; [| |apply Forall2_nil]; now apply join_spec. }
  assert (SP : separate place paths).
  { split; [|cbn; intros [X|[X|[]]]; discriminate X]. repeat constructor; [|intros []]. intros [X|[]]. apply own_inj in X. discriminate X. }
  assert (AP : ~ In (place (ascii "c/cardinalities.dat")) (map place paths)).
  { intros [X|[X|[]]]; apply own_inj in X; discriminate X. }
  assert (R0 : place (ascii "c/cardinalities.dat") <> None) by discriminate.
  assert (M1 : (1 <= 12)%Z) by lia. assert (M2 : (2 * 12 <= 2 ^ 53)%Z) by discriminate. assert (M3 : (2 * 12 <= 2 ^ Z.of_N (usize_bits test_env))%Z) by discriminate.
  assert (W : 2 * 4 < usize_bits test_env) by reflexivity. assert (J : 1 < 2 ^ usize_bits test_env) by reflexivity.
  assert (Nn : 0 < 2 < 2 ^ usize_bits test_env) by (split; reflexivity). assert (N50 : 2 <= 2 ^ 50) by discriminate.
  assert (AC : accurate test_env) by exact (fun _ => model_ln_accurate _).
  destruct (exp_pipeline_pf listed test_env place small_draws (fun _ _ => keep) eq_refl 12 1 4 (ascii "c") (ascii "c/cardinalities.dat") (ascii "o") 2
    [ascii "est-p4-cards-s32-r0.dat"; ascii "est-p4-cards-s32-r1.dat"] paths (fun _ => None) (proj1 test_build) W J ltac:(lia) Nn DR M1 M2 M3 FI R0 HF HO CN PN SP AP)
    as (cards & d1 & GC & PC & (r & R) & A).
  destruct (A r R) as (d2 & -> & _).
  destruct (plotted_cards_pf listed test_env place small_draws (fun _ _ => keep) eq_refl 12 1 4 (ascii "c") (ascii "c/cardinalities.dat") (ascii "o") 2
    [ascii "est-p4-cards-s32-r0.dat"; ascii "est-p4-cards-s32-r1.dat"] paths (fun _ => None) (proj1 test_build) AC test_rejects W J ltac:(lia) Nn N50 DR M1 M2 M3 FI R0 HF HO CN PN SP AP d1 d2 PC R)
    as ((cs & F) & V).
  destruct (Forall2_perm_l _ _ _ _ _ (perm_swap _ _ []) _ F) as (contents & _ & F').
  destruct (V _ contents (perm_swap _ _ []) F') as (cards' & runs & outs & GC' & _ & _ & (r & Hr) & G). destruct (G r Hr) as (g & -> & X & _).
  exists d1, d2, contents, g. repeat (split; [assumption|]). rewrite (proj1 exp_example) in GC'. injection GC' as <-. exact X.
Qed.

Lemma cards_plus_example :
  let place s := Some (number s) in
  let args := ExpRunArgs 1 (ascii "hllp") (ascii "cardinalities") 15 None (Some 2%Z) (Some (ascii "c/cardinalities.dat")) (ascii "o") in
  exists d1 d2 contents g, prepare_cardinalities place (ascii "c") 12 (fun _ => None) = Ret d1 /\
    exp_run listed test_env place example_draws (fun _ _ => keep) args d1 (Ret d2) /\
    Forall2 (has_file place d2) [ascii "o/est-p15-cards-s64-r1.dat"; ascii "o/est-p15-cards-s64-r0.dat"] contents /\
    plot false false contents (Ret g) /\ g_x g = [1; 2; 3; 4; 5; 6; 7; 8; 9; 10; 11; 12]%Z.
Proof.
  intros place args. set (paths := [ascii "o/est-p15-cards-s64-r0.dat"; ascii "o/est-p15-cards-s64-r1.dat"]).
  assert (NN : forall k, numeral k (display_uint k)) by apply display_numeral.
  assert (DR : forall k i, example_draws k i < 2 ^ 64) by (intros k i; unfold example_draws; destruct (N.odd (k + i)); reflexivity).
  assert (OR : forall k i : N, is_order ((fun _ _ => keep) k i)) by (intros _ _ l; apply Permutation_refl).
  assert (FI : in_directory (ascii "c") (ascii "cardinalities.dat") (ascii "c/cardinalities.dat")) by now apply join_spec.
  assert (HF : ~ hyphen (ascii "c/cardinalities.dat")) by (intros (x & t & H); discriminate H).
  assert (HO : ~ hyphen (ascii "o")) by (intros (x & t & H); discriminate H).
  assert (CN : Forall2 (cards_name 15 (ascii "64")) (first_draws (fun r => r) 2) [ascii "est-p15-cards-s64-r0.dat"; ascii "est-p15-cards-s64-r1.dat"]).
  { repeat apply Forall2_cons; [| |apply Forall2_nil]; exists (ascii "15"); [exists (ascii "0")|exists (ascii "1")]; (split; [exact (NN 15)|]); (split; [|reflexivity]); [exact (NN 0)|exact (NN 1)]. }
  assert (PN : Forall2 (in_directory (ascii "o")) [ascii "est-p15-cards-s64-r0.dat"; ascii "est-p15-cards-s64-r1.dat"] paths).
  { repeat apply Forall2_cons; [| |apply Forall2_nil]; now apply join_spec. }
  assert (SP : separate place paths).
  { split; [|cbn; intros [X|[X|[]]]; discriminate X]. repeat constructor; [|intros []]. intros [X|[]]. apply own_inj in X. discriminate X. }
  assert (AP : ~ In (place (ascii "c/cardinalities.dat")) (map place paths)).
  { intros [X|[X|[]]]; apply own_inj in X; discriminate X. }
  assert (R0 : place (ascii "c/cardinalities.dat") <> None) by discriminate.
  assert (M1 : (1 <= 12)%Z) by lia. assert (M2 : (2 * 12 <= 2 ^ 53)%Z) by discriminate. assert (M3 : (2 * 12 <= 2 ^ Z.of_N (usize_bits test_env))%Z) by discriminate.
  assert (W : 2 * 15 < usize_bits test_env) by reflexivity. assert (J : 1 < 2 ^ usize_bits test_env) by reflexivity.
  assert (Nn : 0 < 2 < 2 ^ usize_bits test_env) by (split; reflexivity). assert (N50 : 2 <= 2 ^ 50) by discriminate.
  assert (AC : accurate test_env) by exact (fun _ => model_ln_accurate _).
  assert (LOW : forall k cards out, k < 2 -> generate_cardinalities 12 = Ret cards -> plus_card_lines test_env 15 (example_draws k) (map Z.to_N cards) out ->
    Forall (fun est => snd est <= 2 ^ 40 * fst est) out).
  { intros k cards out _ GC. rewrite (proj1 exp_example) in GC. injection GC as <-. apply plus_card_low; [exact test_build|exact AC|lia|exact W|apply DR|].
    repeat (constructor; [vm_compute; discriminate|]). constructor. }
  destruct (exp_pipeline_plus listed test_env place example_draws (fun _ _ => keep) eq_refl 12 1 15 (ascii "c") (ascii "c/cardinalities.dat") (ascii "o") 2
    [ascii "est-p15-cards-s64-r0.dat"; ascii "est-p15-cards-s64-r1.dat"] paths (fun _ => None) test_build OR W J ltac:(lia) Nn DR M1 M2 M3 FI R0 HF HO CN PN SP AP)
    as (cards & d1 & GC & PC & (r & R) & A).
  destruct (A r R) as (d2 & -> & _).
  destruct (plotted_cards_plus listed test_env place example_draws (fun _ _ => keep) eq_refl 12 1 15 (ascii "c") (ascii "c/cardinalities.dat") (ascii "o") 2
    [ascii "est-p15-cards-s64-r0.dat"; ascii "est-p15-cards-s64-r1.dat"] paths (fun _ => None) test_build OR W J ltac:(lia) Nn N50 DR M1 M2 M3 FI R0 HF HO CN PN SP AP LOW d1 d2 PC R)
    as ((cs & F) & V).
  destruct (Forall2_perm_l _ _ _ _ _ (perm_swap _ _ []) _ F) as (contents & _ & F').
  destruct (V _ contents (perm_swap _ _ []) F') as (cards' & runs & outs & GC' & _ & _ & (r & Hr) & G). destruct (G r Hr) as (g & -> & X & _).
  exists d1, d2, contents, g. repeat (split; [assumption|]). rewrite (proj1 exp_example) in GC'. injection GC' as <-. exact X.
Qed.
